(** Proofs for C61, continued: whole files. *)
From Coq Require Import ZArith NArith Bool String List Lia Arith.
From Verif Require Import M31 Isa Mir MirSem MirCopyFacts Src SrcSem SrcCheck SrcFacts Syn ParseFacts FmtFacts Sema SemaSpec Typing Elab Named ElabFacts Prop_Sema.
Import ListNotations.
Open Scope list_scope.
Open Scope nat_scope.

Lemma omap_forall2 {A B} (f : A -> option B) : forall l bs, omap f l = Some bs -> Forall2 (fun a b => f a = Some b) l bs.
Proof.
  induction l as [|a l IH]; intros bs H; cbn in H; [injection H as <-; constructor|].
  destruct (f a) eqn:E; [|discriminate H]. destruct (omap f l) as [r|]; [|discriminate H]. injection H as <-. constructor; auto.
Qed.
Lemma forall2_nth {A B} (R : A -> B -> Prop) l l' : Forall2 R l l' -> forall k a, nth_error l k = Some a -> exists b, nth_error l' k = Some b /\ R a b.
Proof. induction 1 as [|a b l l' H F IH]; intros [|k] x E; try discriminate E; cbn in *; [injection E as <-; eauto|eauto]. Qed.
Lemma forall2_nth_r {A B} (R : A -> B -> Prop) l l' : Forall2 R l l' -> forall k b, nth_error l' k = Some b -> exists a, nth_error l k = Some a /\ R a b.
Proof. induction 1 as [|a b l l' H F IH]; intros [|k] x E; try discriminate E; cbn in *; [injection E as <-; eauto|eauto]. Qed.

(** Numbered names, the last first. *)
Definition numbered (xs : list string) (n : nat) : env := rev (combine xs (seq n (length xs))).
Lemma numbered_cons x xs n : numbered (x :: xs) n = numbered xs (S n) ++ [(x, n)].
Proof. reflexivity. Qed.
Lemma numbered_app xs ys n : numbered (xs ++ ys) n = numbered ys (n + length xs) ++ numbered xs n.
Proof.
  revert n. induction xs as [|x xs IH]; intro n; [cbn [app length]; now rewrite Nat.add_0_r, app_nil_r|].
  cbn [app length]. rewrite !numbered_cons, IH, <- app_assoc. now rewrite Nat.add_succ_r.
Qed.
(** The names that are known everywhere in a file. *)
Definition global_names (i : item) : list string :=
  match i with
  | IFn f => [f_name f]
  | IStruct s => [s_name s]
  | IUse u => match u_path u with [] => [] | _ => use_names u end
  | IConst _ => []
  end.
Lemma all_declares w : forall xs r n, exists fd,
  all (declares w) xs r n = (fd, numbered xs n ++ r, n + length xs) /\ in_exprs fd = [].
Proof.
  induction xs as [|x xs IH]; intros r n.
  - exists nothing. split; [|reflexivity]. cbn. unfold plain. now rewrite Nat.add_0_r.
  - destruct (IH ((x, n) :: r) (S n)) as (fd & E & Z).
    change (all (declares w) (x :: xs) r n) with (next (declares w x r n) (fun r n => all (declares w) xs r n)).
    unfold declares at 1, next. rewrite E. eexists. split.
    + rewrite numbered_cons, <- app_assoc. cbn [app length]. rewrite Nat.add_succ_r. reflexivity.
    + cbn. exact Z.
Qed.
Lemma globals_item i r n : exists fd, globals i r n = (fd, numbered (global_names i) n ++ r, n + length (global_names i)) /\ in_exprs fd = [].
Proof.
  destruct i as [f|c|k|u]; cbn [globals global_names].
  - exact (all_declares false [f_name f] r n).
  - exact (all_declares false [s_name c] r n).
  - exact (all_declares false [] r n).
  - destruct (u_path u); [exact (all_declares false [] r n)|]. exact (all_declares true (use_names u) r n).
Qed.
Lemma all_globals : forall m r n, exists fd,
  all globals m r n = (fd, numbered (flat_map global_names m) n ++ r, n + length (flat_map global_names m)) /\ in_exprs fd = [].
Proof.
  induction m as [|i m IH]; intros r n.
  - exists nothing. split; [|reflexivity]. cbn. unfold plain. now rewrite Nat.add_0_r.
  - change (all globals (i :: m) r n) with (next (globals i r n) (fun r n => all globals m r n)).
    destruct (globals_item i r n) as (f1 & E1 & Z1). rewrite E1. unfold next.
    destruct (IH (numbered (global_names i) n ++ r) (n + length (global_names i))) as (fd & E & Z). rewrite E. eexists. split.
    + cbn [flat_map]. rewrite numbered_app, app_length, <- app_assoc, Nat.add_assoc. reflexivity.
    + cbn. rewrite Z1. exact Z.
Qed.
Lemma all_params : forall ps r n, exists fd,
  all walk_param ps r n = (fd, numbered (map fst ps) n ++ r, n + length ps) /\ in_exprs fd = [].
Proof.
  induction ps as [|p ps IH]; intros r n.
  - exists nothing. split; [|reflexivity]. cbn. unfold plain. now rewrite Nat.add_0_r.
  - destruct (IH ((fst p, n) :: r) (S n)) as (fd & E & Z).
    change (all walk_param (p :: ps) r n) with (next (walk_param p r n) (fun r n => all walk_param ps r n)).
    unfold walk_param at 1, next, plain, declares. rewrite E. eexists. split.
    + cbn [map]. rewrite numbered_cons, <- app_assoc. cbn [app length]. rewrite Nat.add_succ_r. reflexivity.
    + cbn. exact Z.
Qed.

(** The items of a file, read with lexical scopes. *)
Inductive items (fn : nat -> option nat) (sg : sigs) : nat -> list (nat * Src.expr) -> env -> module -> list sfun -> Prop :=
| it_nil base ks rg : items fn sg base ks rg [] []
| it_fn base ks rg g m fs ps r c ts r1 : signature g = Some (ps, r) ->
    lblock_of (lex_s closedb base fn ks sg r) (f_body g) (numbered (map fst (f_params g)) base ++ rg, map param_slot ps) = Some (c, (r1, ts)) ->
    items fn sg (base + length ts) ks rg m fs ->
    items fn sg base ks rg (IFn g :: m) (Sfun (var_types ts) ps r c :: fs)
| it_const base ks rg c m fs t e vt : match c_ty c with None => Some None | Some t => option_map Some (scalar_ty t) end = Some t ->
    lex_e base fn ks sg rg [] t t (c_val c) = Some e -> type_of (var_types []) sg e = Some vt -> (forall t', t = Some t' -> t' = vt) ->
    items fn sg (S base) ((base, e) :: ks) ((c_name c, base) :: rg) m fs ->
    items fn sg base ks rg (IConst c :: m) fs
| it_use base ks rg u m fs : items fn sg base ks rg m fs -> items fn sg base ks rg (IUse u :: m) fs.
Lemma signature_length g ps r : signature g = Some (ps, r) -> length (f_params g) = length ps.
Proof.
  unfold signature. destruct (omap _ _) as [l|] eqn:E; [|discriminate]. destruct (result_ty _); [|discriminate]. intro H. injection H as <- _.
  exact (Forall2_len (omap_forall2 _ _ _ E)).
Qed.
Lemma elab_items_read fn sg : forall m base ks rg fs u,
  let '(fd, _, _) := all walk_item m rg base in
  elab_items closedb base fn ks sg m (in_exprs fd ++ u) = Some fs -> items fn sg base ks rg m fs.
Proof.
  induction m as [|i m IH]; intros base ks rg fs u.
  - cbn. intro H. injection H as <-. constructor.
  - change (all walk_item (i :: m) rg base) with (next (walk_item i rg base) (fun r n => all walk_item m r n)).
    destruct i as [g|s|c|us].
    + change (walk_item (IFn g) rg base) with
        (SemaSpec.scoped rg (next (plain (found_t rg (Some (f_ret g))) rg base) (fun r n => next (all walk_param (f_params g) r n) (all walk_s (f_body g))))).
      unfold SemaSpec.scoped, next, plain. destruct (all_params (f_params g) rg base) as (fp & Ep & Zp). rewrite Ep.
      destruct (signature g) as [(ps & r)|] eqn:Sg.
      2:{ destruct (all walk_s _ _ _) as ((f1 & r1) & n1). destruct (all walk_item _ _ _) as ((f2 & r2) & n2). cbn [elab_items]. unfold elab_fn. rewrite Sg. discriminate. }
      pose proof (signature_length _ _ _ Sg) as Len. rewrite Len.
      pose proof (elab_lex_block closedb base fn ks sg r (f_body g)) as B.
      assert (Fl : Forall (same_s base (fun s r n => walk_s s r n) (fun s st => elab_s closedb base fn ks sg r s st) (fun s st => lex_s closedb base fn ks sg r s st)) (f_body g)).
      { apply Forall_forall. intros s _. apply elab_lex_s. }
      specialize (B Fl (numbered (map fst (f_params g)) base ++ rg) (map param_slot ps)). clear Fl. rewrite map_length in B.
      change (all (fun s r n => walk_s s r n)) with (all walk_s) in B.
      destruct (all walk_s (f_body g) _ _) as ((fb & rb) & nb).
      destruct (all walk_item m rg nb) as ((f2 & r2) & n2) eqn:A2.
      cbn [both in_exprs found_t app]. rewrite Zp. cbn [app]. rewrite <- app_assoc. intro H. cbn [elab_items] in H. unfold elab_fn in H. rewrite Sg in H.
      specialize (B (in_exprs f2 ++ u)).
      change (fun s st => elab_s closedb base fn ks sg r s st) with (elab_s closedb base fn ks sg r) in B. change (fun s st => lex_s closedb base fn ks sg r s st) with (lex_s closedb base fn ks sg r) in B.
      destruct (lblock_of (lex_s closedb base fn ks sg r) (f_body g) _) as [(c & (r1 & ts))|] eqn:Lb; [|rewrite B in H; discriminate H].
      destruct B as (_ & -> & B). rewrite B in H. specialize (IH (base + length ts)).
      destruct (elab_items closedb (base + length ts) fn ks sg m (in_exprs f2 ++ u)) as [fs'|] eqn:E2; [|discriminate H]. injection H as <-.
      eapply it_fn; [exact Sg|exact Lb|]. specialize (IH ks rg fs' u). rewrite A2 in IH. exact (IH E2).
    + destruct (next _ _) as ((fd & r') & n'). cbn [elab_items]. discriminate.
    + change (walk_item (IConst c) rg base) with (next (plain (found_e rg (c_val c)) rg base) (declares true (c_name c))).
      unfold next, plain, declares. specialize (IH (S base)). destruct (all walk_item m ((c_name c, base) :: rg) (S base)) as ((f2 & r2) & n2) eqn:A2.
      cbn [both in_exprs found_e app]. rewrite app_nil_r, <- app_assoc. cbn [elab_items]. unfold elab_const.
      destruct (match c_ty c with None => _ | Some _ => _ end) as [t|] eqn:Et; [|discriminate]. rewrite elab_lex_e.
      destruct (lex_e base fn ks sg rg [] t t (c_val c)) as [e|] eqn:Le; [|discriminate]. cbn [plus_u option_map].
      destruct (type_of (var_types []) sg e) as [vt|] eqn:Ty; [|discriminate].
      destruct (match t with Some _ => _ | None => _ end) eqn:Q; [|discriminate]. intro H.
      eapply it_const; [exact Et|exact Le|exact Ty| |].
      * intros t' ->. now apply ty_eqb_eq.
      * specialize (IH ((base, e) :: ks) ((c_name c, base) :: rg) fs u). rewrite A2 in IH. exact (IH H).
    + change (walk_item (IUse us) rg base) with (plain nothing rg base). unfold next, plain.
      specialize (IH base ks rg fs u). destruct (all walk_item m rg base) as ((f2 & r2) & n2). cbn [both in_exprs nothing app elab_items]. intro H. constructor. exact (IH H).
Qed.

(** Which function a name means. *)
Lemma refers_numbered : forall xs n x d, refers (numbered xs n) x = Some d -> n <= d /\ nth_error xs (d - n) = Some x.
Proof.
  induction xs as [|y xs IH]; intros n x d H; [discriminate H|]. rewrite numbered_cons, refers_app in H.
  destruct (refers (numbered xs (S n)) x) as [d'|] eqn:E.
  - injection H as <-. apply IH in E as (L & E). split; [lia|]. replace (d' - n) with (S (d' - S n)) by lia. exact E.
  - cbn in H. destruct (String.eqb_spec y x) as [->|]; [|discriminate H]. injection H as <-. rewrite Nat.sub_diag. split; [lia|reflexivity].
Qed.
Lemma distinct_nodup : forall l, distinct l = true -> NoDup l.
Proof.
  induction l as [|x l IH]; intro H; [constructor|]. cbn in H. apply andb_prop in H as (H1 & H2). constructor; [|auto].
  intro I. apply negb_true_iff in H1. assert (X : existsb (String.eqb x) l = true); [|congruence].
  apply existsb_exists. exists x. split; [exact I|apply String.eqb_refl].
Qed.
Lemma nodup_app_r {A} (l l' : list A) : NoDup (l ++ l') -> NoDup l'.
Proof. induction l as [|a l IH]; cbn; [auto|]. intro H. inversion H. auto. Qed.
Lemma nodup_app_l {A} (l l' : list A) : NoDup (l ++ l') -> NoDup l.
Proof. induction l as [|a l IH]; cbn; [constructor|]. intro H. inversion H as [|? ? N H']; subst. constructor; [|auto]. intro I. apply N, in_or_app. now left. Qed.
Lemma nodup_app_both {A} (l l' : list A) a : NoDup (l ++ l') -> In a l -> In a l' -> False.
Proof. induction l as [|b l IH]; cbn; [auto|]. intros H [->|I] I'; inversion H as [|? ? N H']; subst; [apply N, in_or_app; now right|eauto]. Qed.
Lemma distinct_function : forall m g, NoDup (map f_name (fns_of m)) -> In g (fns_of m) -> function m (f_name g) = Some g.
Proof.
  induction m as [|i m IH]; intros g D I; [destruct I|]. destruct i as [h| | |]; try exact (IH _ D I). cbn [fns_of map] in D, I. cbn [function].
  inversion D as [|? ? N D']; subst. destruct I as [->|I]; [now rewrite String.eqb_refl|].
  destruct (String.eqb_spec (f_name h) (f_name g)) as [Q|]; [|auto]. exfalso. apply N. rewrite Q. now apply in_map.
Qed.
Definition const_names (m : module) : list string := flat_map (fun i => match i with IConst c => [c_name c] | _ => [] end) m.
Lemma tops_fns : forall m, NoDup (flat_map top_names m) -> NoDup (map f_name (fns_of m)).
Proof.
  assert (K : forall m x, In x (map f_name (fns_of m)) -> In x (flat_map top_names m)).
  { induction m as [|i m IH]; intros x I; [destruct I|]. cbn [flat_map]. apply in_or_app. destruct i; try (right; now apply IH). destruct I as [<-|I]; [left; now left|right; now apply IH]. }
  induction m as [|i m IH]; intro N; [constructor|]. cbn [flat_map] in N. destruct i; try exact (IH (nodup_app_r _ _ N)).
  cbn in N. inversion N as [|? ? N1 N2]; subst. cbn. constructor; [|auto]. intro I. apply N1, K, I.
Qed.
Lemma tops_consts : forall m, NoDup (flat_map top_names m) -> NoDup (const_names m).
Proof.
  assert (K : forall m x, In x (const_names m) -> In x (flat_map top_names m)).
  { induction m as [|i m IH]; intros x I; [destruct I|]. cbn [flat_map]. apply in_or_app. destruct i; try (right; now apply IH). destruct I as [<-|I]; [left; now left|right; now apply IH]. }
  induction m as [|i m IH]; intro N; [constructor|]. cbn [flat_map] in N. destruct i; try exact (IH (nodup_app_r _ _ N)).
  cbn in N. inversion N as [|? ? N1 N2]; subst. cbn. constructor; [|auto]. intro I. apply N1, K, I.
Qed.
Lemma types_signature g ps r : signature g = Some (ps, r) -> types_named (f_params g) = Some ps /\ type_named (f_ret g) = r.
Proof.
  unfold signature. destruct (omap _ _) as [l|] eqn:E; [|discriminate]. destruct (result_ty (f_ret g)) as [t|] eqn:Rt; [|discriminate]. intro H. injection H as <- <-. split.
  - revert l E. induction (f_params g) as [|(x & t0) qs IH]; intros l E; cbn [omap types_named snd] in *; [exact E|]. change (type_named t0) with (scalar_ty t0).
    destruct (scalar_ty t0); [|discriminate E]. destruct (omap _ qs) as [l'|]; [|discriminate E]. rewrite (IH _ eq_refl). exact E.
  - change (type_named (f_ret g)) with (scalar_ty (f_ret g)). unfold result_ty in Rt.
    destruct (f_ret g) as [nm|a|ts|a n]; cbn in Rt |- *; try discriminate Rt; [destruct nm; try discriminate Rt; now injection Rt|destruct ts; [now injection Rt|discriminate Rt]].
Qed.

(** The parameters. *)
Lemma numbered_wf base xs : wf base (length xs) (numbered xs base).
Proof.
  unfold numbered. split.
  - apply Forall_rev. apply Forall_forall. intros (x & k) I. apply in_combine_r in I. apply in_seq in I. cbn. lia.
  - rewrite map_rev. apply NoDup_rev. replace (map snd (combine xs (seq base (length xs)))) with (seq base (length xs)); [apply seq_NoDup|].
    symmetry. generalize base. induction xs as [|x xs IH]; intro b; [reflexivity|]. cbn. now rewrite IH.
Qed.
Lemma forall2_weaken {A B} (R R' : A -> B -> Prop) l l' : Forall2 R l l' -> (forall a b, R a b -> R' a b) -> Forall2 R' l l'.
Proof. induction 1; intro H'; constructor; auto. Qed.
Lemma Forall2_rev {A B} (R : A -> B -> Prop) l l' : Forall2 R l l' -> Forall2 R (rev l) (rev l').
Proof. induction 1; cbn; [constructor|]. apply Forall2_app; [assumption|]. constructor; [assumption|constructor]. Qed.
Lemma numbered_agree base xs args : length xs = length args ->
  Forall2 (fun p q => fst p = fst q /\ exists v, snd q = NVar v /\ init args (snd p - base) = Some v) (numbered xs base) (rev (combine xs (map NVar args))).
Proof.
  intro L. apply Forall2_rev. unfold init.
  enough (K : forall (xs : list string) (ys pre : list val) b, length xs = length ys -> Forall2 (fun p q => fst p = fst q /\ exists v, snd q = NVar v /\ nth_error (pre ++ ys) (snd p - b) = Some v) (combine xs (seq (b + length pre) (length xs))) (combine xs (map NVar ys))).
  { specialize (K xs args [] base L). cbn [length app] in K. rewrite Nat.add_0_r in K. exact K. }
  clear. induction xs as [|x xs IH]; intros [|y ys] pre b L; try discriminate L; cbn [length seq combine map]; constructor.
  - cbn. split; [reflexivity|]. eexists. split; [reflexivity|]. replace (b + length pre - b) with (length pre) by lia. rewrite nth_error_app2, Nat.sub_diag by lia. reflexivity.
  - specialize (IH ys (pre ++ [y]) b). rewrite app_length in IH. cbn [length] in IH. rewrite Nat.add_1_r, Nat.add_succ_r in IH. rewrite <- app_assoc in IH. apply IH. now injection L.
Qed.


Lemma lex_closed base fn ks sg rg : (forall d e, const_value ks d = Some e -> closedb e = true) ->
  forall e h x e', lex_e base fn ks sg rg [] h x e = Some e' -> closedb e' = true.
Proof.
  intro Hk. induction e as [v s|b|x|op a IH|op l r IHl IHr|f es IHf IHes|a m IH|l r IHl IHr|n fs IHfs|es IH|a i IH|es IH|a n IH|a u IH|u n IH|a IH]
    using expr_ind2; intros h ex e' L; cbn [lex_e] in L; try discriminate L.
  - destruct s as [s|]; [destruct (suffix_type s)|destruct (literal_type h ex)]; try discriminate L; injection L as <-; reflexivity.
  - injection L as <-. reflexivity.
  - destruct (refers rg x) as [d|]; [|discriminate L]. destruct (is_assert x); [discriminate L|]. destruct (d <? base); [exact (Hk _ _ L)|].
    destruct (d - base); discriminate L.
  - destruct (lex_e base fn ks sg rg [] h None a) eqn:E; [|discriminate L]. injection L as <-. exact (IH _ _ _ E).
  - destruct (lex_e base fn ks sg rg [] h None l) eqn:E; [|discriminate L]. destruct (lex_e base fn ks sg rg [] h _ r) eqn:E2 in L; [|discriminate L].
    injection L as <-. cbn [closedb]. now rewrite (IHl _ _ _ E), (IHr _ _ _ E2).
  - destruct f as [| |f| | | | | | | | | | | | |]; try discriminate L. destruct (refers rg f) as [d|]; [|discriminate L].
    destruct (is_assert f || negb (d <? base)); [discriminate L|]. destruct (fn d) as [k|]; [|discriminate L]. destruct (nth_error sg k) as [(ps & t)|]; [|discriminate L].
    match type of L with match ?x with Some _ => _ | None => _ end = _ => destruct x as [es'|] eqn:E in L; [|discriminate L] end.
    injection L as <-. cbn [closedb]. revert ps es' E. induction IHes as [|a es Ha IHes IH]; intros ps es' E.
    + injection E as <-. reflexivity.
    + destruct (lex_e base fn ks sg rg [] h (hd_error ps) a) as [a'|] eqn:Ea; [|discriminate E].
      match type of E with match ?x with Some _ => _ | None => _ end = _ => destruct x as [es2|] eqn:E2 in E; [|discriminate E] end.
      injection E as <-. cbn [closedbs]. now rewrite (Ha _ _ _ Ea), (IH _ _ E2).
  - destruct (scalar_ty u); [|discriminate L]. destruct (lex_e base fn ks sg rg [] h None a) eqn:E; [|discriminate L]. injection L as <-. exact (IH _ _ _ E).
  - exact (IH _ _ _ L).
Qed.

Lemma refers_in : forall r x d, refers r x = Some d -> In (x, d) r.
Proof. induction r as [|(y & k) r IH]; intros x d H; [discriminate H|]. cbn in H. destruct (String.eqb_spec y x) as [->|]; [injection H as ->; now left|right; auto]. Qed.
Lemma constants_other params call x : forall m K, ~ In x (const_names m) -> constants params call m K x = K x.
Proof.
  induction m as [|i m IH]; intros K H; [reflexivity|]. destruct i as [g|s|c|u]; try exact (IH K H). cbn [constants]. rewrite IH.
  - unfold constant. destruct (String.eqb_spec (c_name c) x) as [Q|]; [|reflexivity]. exfalso. apply H. now left.
  - intro I. apply H. now right.
Qed.

(** The functions of one file, with a given meaning of calls. *)
Section File.
Variables (fn : nat -> option nat) (sg : sigs) (F : nat) (rg0 : env) (base0 : nat).
Variables (call : nat -> list val -> res (option val)) (ncall : string -> list val -> res (option val)) (params : string -> option (list Mir.ty)).
Hypothesis Hfn : forall d k, fn d = Some k -> d < base0.
Hypothesis Hrg0 : forall x d, refers rg0 x = Some d -> d < base0.
Hypothesis Hcall : forall d k ps t f vs, nth_error sg k = Some (ps, t) -> refers rg0 f = Some d -> fn d = Some k -> Forall2 fits ps vs ->
  ncall f vs = call k vs /\ (forall o, call k vs = ROk o -> fit_ret t o).
Hypothesis Hparams : forall d k ps t f, nth_error sg k = Some (ps, t) -> refers rg0 f = Some d -> fn d = Some k -> params f = Some ps.

Definition konst_ok (ks : list (nat * Src.expr)) (rg : env) (K : string -> option (res val)) : Prop :=
  forall d e x, refers rg x = Some d -> const_value ks d = Some e -> exists t a,
    (forall V, type_of V sg e = Some t) /\ K x = Some a /\ forall st, eval call st e = a /\ forall v, a = ROk v -> fits t v.
Definition inv (base : nat) (ks : list (nat * Src.expr)) (rg : env) (seen : list string) : Prop :=
  base0 <= base /\ (exists rc, rg = rc ++ rg0 /\ Forall (fun p => base0 <= snd p < base /\ In (fst p) seen) rc) /\
  (forall d e, const_value ks d = Some e -> base0 <= d < base /\ closedb e = true).
Lemma inv_base base ks rg seen : inv base ks rg seen -> forall x d, refers rg x = Some d -> d < base.
Proof using Hfn Hrg0 Hcall Hparams.
  intros (Hb & (rc & -> & Fc) & _) x d H. rewrite refers_app in H. destruct (refers rc x) as [d'|] eqn:E.
  - injection H as ->. apply refers_in in E. rewrite Forall_forall in Fc. apply Fc in E. cbn in E. lia.
  - apply Hrg0 in H. lia.
Qed.
Lemma inv_seen base ks rg seen : inv base ks rg seen -> forall x d, refers rg x = Some d -> base0 <= d -> In x seen.
Proof using Hfn Hrg0 Hcall Hparams.
  intros (Hb & (rc & -> & Fc) & _) x d H L. rewrite refers_app in H. destruct (refers rc x) as [d'|] eqn:E.
  - apply refers_in in E. rewrite Forall_forall in Fc. apply Fc in E. apply E.
  - apply Hrg0 in H. lia.
Qed.
Lemma inv_global base ks rg seen : inv base ks rg seen -> forall x d, refers rg x = Some d -> d < base0 -> refers rg0 x = Some d.
Proof using Hfn Hrg0 Hcall Hparams.
  intros (Hb & (rc & -> & Fc) & _) x d H L. rewrite refers_app in H. destruct (refers rc x) as [d'|] eqn:E; [|exact H].
  injection H as ->. apply refers_in in E. rewrite Forall_forall in Fc. apply Fc in E. cbn in E. lia.
Qed.

Definition good (K : string -> option (res val)) (g : fdef) (f : sfun) : Prop :=
  signature g = Some (s_params f, s_ret f) /\
  forall args, Forall2 fits (s_params f) args -> typed (s_vars f) sg (s_ret f) (seq 0 (length (s_params f))) (s_body f) <> None ->
    rbind (nexec params K ncall (type_named (f_ret g)) F (rev (combine (map fst (f_params g)) (map NVar args))) (Syn.SBlock (f_body g)))
          (fun o => match o with NRet v => ROk v | _ => RStuck end) = frun call F f args /\
    forall o, frun call F f args = ROk o -> fit_ret (s_ret f) o.

Lemma fn_good base ks rg seen K g ps r c ts r1 : inv base ks rg seen -> konst_ok ks rg K -> signature g = Some (ps, r) ->
  lblock_of (lex_s closedb base fn ks sg r) (f_body g) (numbered (map fst (f_params g)) base ++ rg, map param_slot ps) = Some (c, (r1, ts)) ->
  good K g (Sfun (var_types ts) ps r c).
Proof using Hfn Hrg0 Hcall Hparams.
  intros I Hk Sg Lb. split; [exact Sg|]. cbn [s_params s_ret s_vars s_body]. intros args Hf Ty.
  destruct (typed (var_types ts) sg r (seq 0 (length ps)) c) as [D'|] eqn:Td; [clear Ty|congruence].
  destruct (types_signature _ _ _ Sg) as (T1 & T2). rewrite T2. pose proof (signature_length _ _ _ Sg) as Len.
  assert (L : lex_s closedb base fn ks sg r (Syn.SBlock (f_body g)) (numbered (map fst (f_params g)) base ++ rg, map param_slot ps) = Some (c, (numbered (map fst (f_params g)) base ++ rg, ts))).
  { exact (f_equal (within (numbered (map fst (f_params g)) base ++ rg)) Lb). }
  pose proof (numbered_wf base (map fst (f_params g))) as W. rewrite map_length, Len in W.
  pose proof (inv_base _ _ _ _ I) as Hrg.
  assert (HC : forall d k ps t f vs, nth_error sg k = Some (ps, t) -> refers rg f = Some d -> fn d = Some k -> Forall2 fits ps vs ->
    ncall f vs = call k vs /\ (forall o, call k vs = ROk o -> fit_ret t o)).
  { intros d k ps' t f vs E1 E2 E3. exact (Hcall _ _ _ _ _ _ E1 (inv_global _ _ _ _ I _ _ E2 (Hfn _ _ E3)) E3). }
  assert (HP : forall d k ps t f, nth_error sg k = Some (ps, t) -> refers rg f = Some d -> fn d = Some k -> params f = Some ps).
  { intros d k ps' t f E1 E2 E3. exact (Hparams _ _ _ _ _ E1 (inv_global _ _ _ _ I _ _ E2 (Hfn _ _ E3)) E3). }
  assert (HK : forall d e, const_value ks d = Some e -> forall V V', type_of V sg e = type_of V' sg e).
  { intros d e E. exact (proj1 (proj1 (closed_same sg) e (proj2 (proj2 (proj2 I) _ _ E)))). }
  assert (HS : Forall slot_ok ts).
  { apply (lex_slots _ _ _ _ _ _ _ _ _ _ _ L). apply Forall_forall. intros k Ik. apply in_map_iff in Ik as (t & <- & _). exact Logic.I. }
  destruct (lex_sim base fn ks sg r rg ts Hrg call ncall params K HC HP HK Hk HS F) as (S & _).
  rewrite <- (map_length param_slot ps) in W.
  destruct (lex_static base fn ks sg r rg ts Hrg call ncall params K HC HP HK Hk HS _ _ _ _ _ _ W L) as (_ & _ & more & _ & _ & _ & Q).
  assert (Tp : forall x t, nth_error ps x = Some t -> nth_error ts x = Some (t, None)).
  { intros x t E1. rewrite Q, nth_error_app1; [now rewrite nth_error_map, E1|]. rewrite map_length. apply nth_error_Some. congruence. }
  assert (Ag : agree base sg ts call (numbered (map fst (f_params g)) base) (init args) (rev (combine (map fst (f_params g)) (map NVar args)))).
  { split.
    - assert (X : length (map fst (f_params g)) = length args) by (rewrite map_length, Len; exact (Forall2_len Hf)).
      apply (forall2_weaken _ _ _ _ (numbered_agree base _ _ X)). intros p q (E1 & v & E2 & E3).
      split; [exact E1|]. rewrite E2. split; [exact E3|]. unfold init in E3. destruct (forall2_nth_r _ _ _ Hf _ _ E3) as (t & E4 & _). exists t. exact (Tp _ _ E4).
    - intros x v Hx. unfold init in Hx. destruct (forall2_nth_r _ _ _ Hf _ _ Hx) as (t & E1 & E2).
      unfold var_types. now rewrite (nth_error_nth _ _ (TErr, None) (Tp _ _ E1)). }
  assert (Pr : prefix_of ts ts) by (exists []; now rewrite app_nil_r).
  specialize (S _ _ _ _ _ _ _ _ _ _ Pr W Ag L Td). unfold frun. cbn [s_body].
  destruct (sexec call F (init args) c) as [o| | |]; cbn [rel] in S; [|rewrite S; cbn; split; [reflexivity|discriminate]..].
  destruct S as (w & -> & S). cbn [rbind]. destruct o, w; cbn in S; try contradiction; try (split; [reflexivity|discriminate]).
  destruct S as (-> & S). split; [reflexivity|]. intros o Eo. injection Eo as <-. exact S.
Qed.
Lemma const_good base ks rg seen K c t e vt : inv base ks rg seen -> konst_ok ks rg K -> ~ In (c_name c) seen ->
  match c_ty c with None => Some None | Some t => option_map Some (scalar_ty t) end = Some t ->
  lex_e base fn ks sg rg [] t t (c_val c) = Some e -> type_of (var_types []) sg e = Some vt -> (forall t', t = Some t' -> t' = vt) ->
  inv (S base) ((base, e) :: ks) ((c_name c, base) :: rg) (c_name c :: seen) /\
  konst_ok ((base, e) :: ks) ((c_name c, base) :: rg) (constant params ncall K c).
Proof using Hfn Hrg0 Hcall Hparams.
  intros I Hk Ns Et Le Ty Eq.
  assert (Cl : closedb e = true) by (apply (lex_closed base fn ks sg rg) in Le; [exact Le|intros d e0 E; apply (proj2 (proj2 I) _ _ E)]).
  split.
  - destruct I as (Hb & (rc & -> & Fc) & Hc). split; [lia|]. split.
    + exists ((c_name c, base) :: rc). split; [reflexivity|]. constructor; [cbn; split; [lia|now left]|].
      revert Fc. apply Forall_impl. intros p (X & Y). split; [lia|now right].
    + intros d e0 E. cbn in E. destruct (Nat.eqb_spec base d) as [<-|]; [injection E as <-; split; [lia|exact Cl]|].
      destruct (Hc _ _ E) as (X & Y). split; [lia|exact Y].
  - pose proof (inv_base _ _ _ _ I) as Hrg.
    intros d e0 x R E. cbn [refers const_value] in R, E. unfold constant. destruct (String.eqb_spec (c_name c) x) as [Ex|Nx]; [subst x|].
    + injection R as <-. rewrite Nat.eqb_refl in E. injection E as <-.
      assert (HC : forall d k ps t f vs, nth_error sg k = Some (ps, t) -> refers rg f = Some d -> fn d = Some k -> Forall2 fits ps vs ->
        ncall f vs = call k vs /\ (forall o, call k vs = ROk o -> fit_ret t o)).
      { intros d k ps' t' f vs E1 E2 E3. exact (Hcall _ _ _ _ _ _ E1 (inv_global _ _ _ _ I _ _ E2 (Hfn _ _ E3)) E3). }
      assert (HP : forall d k ps t f, nth_error sg k = Some (ps, t) -> refers rg f = Some d -> fn d = Some k -> params f = Some ps).
      { intros d k ps' t' f E1 E2 E3. exact (Hparams _ _ _ _ _ E1 (inv_global _ _ _ _ I _ _ E2 (Hfn _ _ E3)) E3). }
      assert (HK : forall d e, const_value ks d = Some e -> forall V V', type_of V sg e = type_of V' sg e).
      { intros d e0 E. exact (proj1 (proj1 (closed_same sg) e0 (proj2 (proj2 (proj2 I) _ _ E)))). }
      assert (Pr : prefix_of [] []) by (exists []; reflexivity).
      assert (W : wf base (@length slot []) []) by (split; constructor).
      assert (Ag : agree base sg [] call [] (fun _ => None) []) by (split; [constructor|discriminate]).
      pose proof (lex_sim_e base fn ks sg None rg [] Hrg call ncall params K HC HP HK Hk (Forall_nil _) [] [] (fun _ => None) [] Pr W Ag (c_val c) t t e vt Le Ty) as R.
      set (a := eval call (fun _ => None) e) in *.
      assert (At : exists t0, declared_type (c_ty c) = Some t0 /\ rbind (nev params K ncall [] (c_val c)) (at_type t0) = a /\ forall v, a = ROk v -> fits vt v).
      { destruct (c_ty c) as [ta|]; cbn [declared_type].
        - change (type_named ta) with (scalar_ty ta). destruct (scalar_ty ta) as [t0|]; [|discriminate Et]. injection Et as <-. pose proof (Eq _ eq_refl) as ->.
          exists vt. split; [reflexivity|]. destruct a as [v| | |]; cbn [rel] in R; [|rewrite R; split; [reflexivity|discriminate]..].
          destruct R as (w & -> & Fv & Sv). cbn [rbind]. split; [destruct Sv as [->|(z & -> & Lz & _)]; [reflexivity|exact Lz]|]. intros v' Ev. injection Ev as <-. exact Fv.
        - injection Et as <-. exists TFelt. split; [reflexivity|]. destruct a as [v| | |]; cbn [rel] in R; [|rewrite R; split; [reflexivity|discriminate]..].
          destruct R as (w & -> & Fv & Sv). cbn [rbind]. split; [destruct Sv as [->|(z & -> & Lz & Hz)]; [reflexivity|rewrite (Hz eq_refl) in Lz; exact Lz]|]. intros v' Ev. injection Ev as <-. exact Fv. }
      destruct At as (t0 & -> & Ea & Fa). exists vt, a. split; [|split; [now rewrite Ea|]].
      * intro V. rewrite <- Ty. apply (proj1 (closed_same sg) e Cl).
      * intro st. split; [apply (proj1 (closed_same sg) e Cl)|exact Fa].
    + assert (Ld : d < base) by exact (Hrg _ _ R). destruct (Nat.eqb_spec base d) as [<-|]; [lia|]. exact (Hk _ _ _ R E).
Qed.
Lemma items_good base ks rg m fs : items fn sg base ks rg m fs -> forall seen K, inv base ks rg seen -> konst_ok ks rg K ->
  (forall x, In x seen -> ~ In x (const_names m)) -> NoDup (const_names m) ->
  Forall2 (good (constants params ncall m K)) (fns_of m) fs.
Proof using Hfn Hrg0 Hcall Hparams.
  induction 1 as [base ks rg|base ks rg g m fs ps r c ts r1 Sg Lb _ IH|base ks rg c m fs t e vt Et Le Ty Eq _ IH|base ks rg u m fs _ IH];
    intros seen K I Hk Hs Nd; cbn [fns_of constants].
  - constructor.
  - constructor.
    + eapply fn_good; [exact I| |exact Sg|exact Lb]. intros d e x R E. rewrite constants_other; [exact (Hk _ _ _ R E)|].
      apply Hs. apply (inv_seen _ _ _ _ I _ _ R). apply (proj2 (proj2 I) _ _ E).
    + apply (IH seen); try assumption. destruct I as (Hb & (rc & -> & Fc) & Hc). split; [lia|]. split.
      * exists rc. split; [reflexivity|]. revert Fc. apply Forall_impl. intros p (X & Y). split; [lia|exact Y].
      * intros d e E. destruct (Hc _ _ E) as (X & Y). split; [lia|exact Y].
  - change (const_names (IConst c :: m)) with (c_name c :: const_names m) in *. inversion Nd as [|? ? N1 N2]; subst.
    assert (Ns : ~ In (c_name c) seen) by (intro X; apply (Hs _ X); now left).
    destruct (const_good _ _ _ _ _ _ _ _ _ I Hk Ns Et Le Ty Eq) as (I' & Hk').
    apply (IH (c_name c :: seen)); try assumption. intros x [<-|X]; [exact N1|]. intro Y. apply (Hs _ X). now right.
  - apply (IH seen); assumption.
Qed.
End File.

Lemma module_typed fs k f : module_ok fs = true -> nth_error fs k = Some f -> typed (s_vars f) (map sig_of fs) (s_ret f) (seq 0 (length (s_params f))) (s_body f) <> None.
Proof.
  intros Ok Ef. unfold module_ok in Ok. rewrite forallb_forall in Ok. specialize (Ok _ (nth_error_In _ _ Ef)). unfold sfun_ok in Ok.
  apply andb_prop in Ok as (Ok & _). apply andb_prop in Ok as (_ & Ok). intro Q. rewrite Q in Ok. discriminate Ok.
Qed.
Lemma items_signatures fn sg base ks rg m fs : items fn sg base ks rg m fs -> Forall2 (fun g f => signature g = Some (sig_of f)) (fns_of m) fs.
Proof. induction 1; cbn [fns_of]; [constructor|constructor; [assumption|assumption]|assumption..]. Qed.

(** Reading a file without imports. *)
Lemma elab_read m fs : elab m = Some fs -> exists sg,
  Forall2 (fun g f => signature g = Some f) (fns_of m) sg /\ NoDup (flat_map top_names m) /\ existsb is_use m = false /\
  items (fun d => if d <? length sg then Some d else None) sg (length (flat_map global_names m)) [] (numbered (flat_map global_names m) 0 ++ []) m fs /\
  flat_map global_names m = map f_name (fns_of m).
Proof.
  unfold elab, elab_with. destruct (omap signature (fns_of m)) as [sg|] eqn:Sg; [|discriminate]. apply omap_forall2 in Sg.
  destruct (distinct _) eqn:Di; [|discriminate]. destruct (existsb is_use m) eqn:Us; [discriminate|]. cbn [negb andb]. intro E. exists sg. split; [exact Sg|]. split; [now apply distinct_nodup|]. split; [reflexivity|].
  assert (Gn : flat_map global_names m = map f_name (fns_of m)).
  { assert (Ns : forall base fn ks u fs, elab_items closedb base fn ks sg m u = Some fs -> forallb (fun i => match i with IStruct _ => false | _ => true end) m = true).
    { clear. induction m as [|i m IH]; intros base fn ks u fs H; [reflexivity|]. destruct i; cbn [elab_items forallb andb] in *.
      - destruct (elab_fn _ _ _ _ _ _ _) as [((? & ?) & ?)|]; [|discriminate H]. destruct (elab_items _ _ _ _ _ m _) as [x|] eqn:X; [|discriminate H]. exact (IH _ _ _ _ _ X).
      - discriminate H.
      - destruct (elab_const _ _ _ _ _ _) as [(? & ?)|]; [|discriminate H]. exact (IH _ _ _ _ _ H).
      - exact (IH _ _ _ _ _ H). }
    specialize (Ns _ _ _ _ _ E). clear - Us Ns. induction m as [|i m IH]; [reflexivity|]. cbn in Us, Ns. apply orb_false_iff in Us as (U1 & U2). apply andb_prop in Ns as (N1 & N2).
    destruct i; try discriminate; cbn [flat_map global_names fns_of map app]; now rewrite IH. }
  split; [|exact Gn]. assert (Len : length (flat_map global_names m) = length sg) by (rewrite Gn, map_length; exact (Forall2_len Sg)). rewrite Len in *.
  rewrite C58_names_are_lexical in E. unfold names_in_file, walk_file in E. destruct (all_globals m [] 0) as (fd & Eg & Zg). unfold next in E. rewrite Eg in E. cbn [plus Nat.add] in E. rewrite Len in E.
  pose proof (elab_items_read (fun d => if d <? length sg then Some d else None) sg m (length sg) [] (numbered (flat_map global_names m) 0 ++ []) fs []) as K.
  destruct (all walk_item m _ (length sg)) as ((f2 & r2) & n2). cbn [both in_exprs] in E. rewrite Zg in E. rewrite app_nil_r in K. exact (K E).
Qed.
Lemma Forall2_map_eq {A B} (f : A -> option B) l bs : Forall2 (fun a b => f a = Some b) l bs -> forall bs', Forall2 (fun a b => f a = Some b) l bs' -> bs' = bs.
Proof. induction 1 as [|a b l bs E F IH]; intros bs' H; inversion H; subst; [reflexivity|]. f_equal; [congruence|auto]. Qed.

Lemma elab_means m fs : elab m = Some fs -> module_ok fs = true -> forall F n k d args ps,
  nth_error (fns_of m) k = Some d -> types_named (f_params d) = Some ps -> Forall2 fits ps args ->
  file_call m F n (f_name d) args = src_call fs F n k args /\
  (forall o, src_call fs F n k args = ROk o -> fit_ret (type_named (f_ret d)) o).
Proof.
  intros E Ok F. destruct (elab_read m fs E) as (sg & Sg & Nd & Us & It & Gn). clear E.
  assert (Sgs : map sig_of fs = sg).
  { pose proof (items_signatures _ _ _ _ _ _ _ It) as X. apply (Forall2_map_eq _ _ _ Sg). clear - X. induction X; cbn; constructor; auto. }
  rewrite Gn in It. set (rg := numbered (map f_name (fns_of m)) 0 ++ []) in *. rewrite map_length in It.
  pose proof (tops_fns m Nd) as Df.
  assert (Nm : forall x d, refers rg x = Some d -> exists g, nth_error (fns_of m) d = Some g /\ f_name g = x).
  { intros x d H. unfold rg in H. rewrite app_nil_r in H. apply refers_numbered in H as (_ & H). rewrite Nat.sub_0_r, nth_error_map in H. destruct (nth_error (fns_of m) d) as [g|]; [|discriminate H].
    injection H as <-. eauto. }
  assert (Hrg : forall x d, refers rg x = Some d -> d < length (fns_of m)).
  { intros x d H. destruct (Nm _ _ H) as (g & Hg & _). apply nth_error_Some. congruence. }
  induction n as [|n IH]; intros k d args ps Hk Ht Hf; [split; [reflexivity|discriminate]|].
  assert (Hcall : forall d k ps t f vs, nth_error sg k = Some (ps, t) -> refers rg f = Some d -> (if d <? length sg then Some d else None) = Some k -> Forall2 fits ps vs ->
    file_call m F n f vs = src_call fs F n k vs /\ (forall o, src_call fs F n k vs = ROk o -> fit_ret t o)).
  { intros d' k' ps' t f vs E1 E2 E3 E4. destruct (d' <? length sg); [|discriminate E3]. injection E3 as ->.
    destruct (Nm _ _ E2) as (g & Eg & <-). destruct (forall2_nth _ _ _ Sg _ _ Eg) as (q & Eq1 & Eq2). rewrite E1 in Eq1. injection Eq1 as <-.
    destruct (types_signature _ _ _ Eq2) as (X1 & X2). rewrite <- X2. exact (IH k' g vs ps' Eg X1 E4). }
  assert (Hpar : forall d k ps t f, nth_error sg k = Some (ps, t) -> refers rg f = Some d -> (if d <? length sg then Some d else None) = Some k -> params_of m f = Some ps).
  { intros d' k' ps' t f E1 E2 E3. destruct (d' <? length sg); [|discriminate E3]. injection E3 as ->.
    destruct (Nm _ _ E2) as (g & Eg & <-). destruct (forall2_nth _ _ _ Sg _ _ Eg) as (q & Eq1 & Eq2). rewrite E1 in Eq1. injection Eq1 as <-.
    unfold params_of. rewrite (distinct_function _ _ Df (nth_error_In _ _ Eg)). exact (proj1 (types_signature _ _ _ Eq2)). }
  assert (Hfn : forall d k, (if d <? length sg then Some d else None) = Some k -> d < length (fns_of m)).
  { intros d' k' H. rewrite (Forall2_len Sg). destruct (Nat.ltb_spec d' (length sg)); [assumption|discriminate H]. }
  pose proof (items_good _ sg F rg (length (fns_of m)) (src_call fs F n) (file_call m F n) (params_of m) Hfn Hrg Hcall Hpar _ _ _ _ _ It [] (fun _ => None)) as G.
  assert (G' : Forall2 (good sg F (src_call fs F n) (file_call m F n) (params_of m) (constants (params_of m) (file_call m F n) m (fun _ => None))) (fns_of m) fs).
  { apply G.
    - split; [lia|]. split; [exists []; split; [reflexivity|constructor]|discriminate].
    - intros ? ? ? _ X. discriminate X.
    - intros x [].
    - exact (tops_consts m Nd). }
  clear G. destruct (forall2_nth _ _ _ G' _ _ Hk) as (f & Ef & S1 & Gf).
  destruct (types_signature _ _ _ S1) as (T1 & T2). rewrite T1 in Ht. injection Ht as <-.
  cbn [file_call src_call]. rewrite (distinct_function _ _ Df (nth_error_In _ _ Hk)), Ef, T2. unfold run_function. rewrite (signature_length _ _ _ S1), (Forall2_len Hf), Nat.eqb_refl.
  apply Gf; [exact Hf|]. rewrite <- Sgs. exact (module_typed _ _ _ Ok Ef).
Qed.
Lemma elab_signature m fs : elab m = Some fs -> forall k d, nth_error (fns_of m) k = Some d ->
  exists f, nth_error fs k = Some f /\ signature d = Some (s_params f, s_ret f).
Proof.
  intros E k d Hk. destruct (elab_read m fs E) as (sg & _ & _ & _ & It & _). apply items_signatures in It. exact (forall2_nth _ _ _ It _ _ Hk).
Qed.
