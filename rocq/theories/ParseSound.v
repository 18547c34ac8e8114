(** What the parser builds is well formed. *)
From Coq Require Import NArith Bool Ascii String List Lia PeanoNat.
From Verif Require Import Lex Syn SynSpec Parse ParseComb ParseFacts ParseStmt.
Import ListNotations.
Open Scope bool_scope.
Open Scope list_scope.

Definition tokok (t : token) : Prop :=
  match t with TNum v _ => numok v = true | TId x => idok x = true | K _ => True end.
Definition sound {A} (p : parser A) (Q : A -> Prop) : Prop :=
  forall ts a r, Forall tokok ts -> p ts = POk a r -> Q a /\ Forall tokok r.

Lemma s_weaken {A} (p : parser A) (Q R : A -> Prop) : sound p Q -> (forall a, Q a -> R a) -> sound p R.
Proof. intros H HR ts a r Ht E. destruct (H ts a r Ht E). auto. Qed.
Lemma s_bind {A B} (p : parser A) (k : A -> parser B) Q R :
  sound p Q -> (forall a, Q a -> sound (k a) R) -> sound (bind p k) R.
Proof. intros Hp Hk ts b r Ht E. apply bind_ok in E as (a & r1 & E1 & E2).
  destruct (Hp _ _ _ Ht E1) as [Ha H1]. exact (Hk a Ha _ _ _ H1 E2). Qed.
Lemma s_orelse {A} (p q : parser A) Q : sound p Q -> sound q Q -> sound (orelse p q) Q.
Proof. intros Hp Hq ts a r Ht E. apply orelse_ok in E as [E | [_ E]]; eauto. Qed.
Definition on_some {A} (Q : A -> Prop) (o : option A) : Prop := match o with Some a => Q a | None => True end.
Lemma s_opt {A} (p : parser A) Q : sound p Q -> sound (opt p) (on_some Q).
Proof. intros Hp ts a r Ht E. apply opt_ok in E as [(x & -> & E) | (-> & -> & _)]; cbn; eauto. Qed.
Lemma s_ret {A} (a : A) (Q : A -> Prop) : Q a -> sound (ret a) Q.
Proof. intros H ts b r Ht E. inversion E; subst. auto. Qed.
Lemma s_fail {A} (Q : A -> Prop) : sound fail Q.
Proof. intros ts b r Ht E. discriminate. Qed.
Lemma s_just k : sound (just k) (fun _ => True).
Proof. intros ts a r Ht E. unfold just in E. destruct ts as [|[| |j] t]; try discriminate.
  destruct (kw_eqb k j); inversion E; subst. inversion Ht; auto. Qed.
Lemma s_ident : sound ident (fun x => idok x = true).
Proof. intros ts a r Ht E. unfold ident in E. destruct ts as [|[| |] t]; inversion E; subst. inversion Ht; auto. Qed.
Lemma s_num : sound num (fun v => numok (fst v) = true).
Proof. intros ts a r Ht E. unfold num in E. destruct ts as [|[| |] t]; inversion E; subst. inversion Ht; auto. Qed.
Lemma s_oneof {A} (l : list (kw * A)) (Q : A -> Prop) : Forall (fun p => Q (snd p)) l -> sound (oneof l) Q.
Proof.
  intros Hl ts a r Ht E. unfold oneof in E. destruct ts as [|[| |k] t]; try discriminate.
  destruct (pick k l) as [b|] eqn:Ep; inversion E; subst. split; [|inversion Ht; auto].
  clear - Hl Ep. induction l as [|[j c] l IH]; cbn in Ep; [discriminate|]. inversion Hl; subst.
  destruct (kw_eqb j k); [inversion Ep; subst; assumption | auto].
Qed.
Lemma s_many {A} (p : parser A) Q : sound p Q -> forall n, sound (many n p) (Forall Q).
Proof.
  intros Hp n. induction n as [|n IH]; intros ts l r Ht E; cbn in E; [discriminate|].
  destruct (p ts) as [x r1| |] eqn:E1; try discriminate.
  - destruct (Hp _ _ _ Ht E1) as [Hx Hr1]. destruct (many n p r1) as [l1 r2| |] eqn:E2; try discriminate.
    destruct (IH _ _ _ Hr1 E2). inversion E; subst. auto.
  - inversion E; subst. auto.
Qed.
Lemma s_repeated {A} (p : parser A) Q : sound p Q -> sound (repeated p) (Forall Q).
Proof. intros Hp ts l r Ht E. exact (s_many p Q Hp _ ts l r Ht E). Qed.
Lemma s_after {A} k (p : parser A) Q : sound p Q -> sound (just k ;; p) Q.
Proof. intro H. apply (s_bind _ _ (fun _ => True)); [apply s_just | intros _ _; exact H]. Qed.
Lemma s_before {A} k (a : A) (Q : A -> Prop) : Q a -> sound (just k ;; ret a) Q.
Proof. intro H. apply s_after, s_ret, H. Qed.
Lemma s_sep {A} k (p : parser A) Q : sound p Q -> sound (sep k p) (Forall Q).
Proof.
  intro H. unfold sep. apply (s_bind _ _ (on_some Q)); [apply s_opt, H|]. intros [a|] Ha; [|apply s_ret; constructor].
  apply (s_bind _ _ (Forall Q)); [apply s_repeated, s_after, H|]. intros l Hl. apply s_ret. auto.
Qed.
Lemma s_sept {A} k (p : parser A) Q : sound p Q -> sound (sept k p) (Forall Q).
Proof.
  intro H. unfold sept. apply (s_bind _ _ (Forall Q)); [apply s_sep, H|]. intros [|a l] Hl; [apply s_ret; constructor|].
  apply (s_bind _ _ (fun _ => True)); [|intros _ _; apply s_ret, Hl].
  apply (s_weaken _ (on_some (fun _ => True))); [apply s_opt, s_just | auto].
Qed.
Lemma s_delim {A} a b (p : parser A) Q : sound p Q -> sound (delim a b p) Q.
Proof. intro H. unfold delim. apply s_after. apply (s_bind _ _ Q); [exact H|]. intros x Hx. apply s_before, Hx. Qed.
Lemma s_foldl {A B} (p : parser A) (q : parser B) f (Q : A -> Prop) (R : B -> Prop) :
  sound p Q -> sound q R -> (forall a b, Q a -> R b -> Q (f a b)) -> sound (foldl p q f) Q.
Proof.
  intros Hp Hq Hf. unfold foldl. apply (s_bind _ _ Q); [exact Hp|]. intros a Ha.
  apply (s_bind _ _ (Forall R)); [apply s_repeated, Hq|]. intros l Hl. apply s_ret.
  revert a Ha. induction Hl as [|b l Hb Hl IH]; intros a Ha; cbn; auto.
Qed.
Lemma s_fueled {A} (p : nat -> parser A) Q : (forall n, sound (p n) Q) -> sound (fueled p) Q.
Proof. intros H ts a r Ht E. exact (H _ ts a r Ht E). Qed.
Lemma s_fuel {A} (Q : A -> Prop) : sound (fun _ => PFuel) Q.
Proof. intros ts a r _ E. discriminate. Qed.
Lemma Forall_b {A} (f : A -> bool) l : Forall (fun a => f a = true) l -> forallb f l = true.
Proof. intro H. apply forallb_forall. rewrite Forall_forall in H. exact H. Qed.

(** ** Types *)
Lemma name_type_ok x : idok x = true -> named_ok (name_type x) = true.
Proof.
  intro H. unfold name_type. destruct (x =? "felt")%string eqn:E1; [reflexivity|].
  destruct (x =? "bool")%string eqn:E2; [reflexivity|]. destruct (x =? "u32")%string eqn:E3; [reflexivity|].
  cbn. rewrite H. unfold name_type. rewrite E1, E2, E3. reflexivity.
Qed.
Lemma s_named : sound named_ty (fun t => wfty t = true /\ noarr t = true /\ is_named t = true).
Proof. unfold named_ty. apply (s_bind _ _ _ _ s_ident). intros x Hx. apply s_ret. cbn. auto using name_type_ok. Qed.
Lemma s_tuple_ty self (Q : ty -> Prop) : sound self Q -> (forall l, Forall Q l -> Q (TyTuple l)) -> sound (tuple_ty self) Q.
Proof.
  intros H HQ. unfold tuple_ty. apply s_after. apply (s_bind _ _ (Forall Q)); [apply s_sep, H|]. intros l Hl.
  apply (s_bind _ _ (fun _ => True)); [apply (s_weaken _ (on_some (fun _ => True))); [apply s_opt, s_just | auto]|].
  intros c _. apply s_before. destruct l as [|a [|b l]]; [auto | | auto].
  destruct c; [auto|]. inversion Hl; assumption.
Qed.
Lemma s_stars p (Q : ty -> Prop) : sound p Q -> (forall t, Q t -> Q (TyPtr t)) -> sound (stars p) Q.
Proof. intros H HQ. unfold stars. apply (s_foldl _ _ _ Q (fun _ => True)); [exact H | apply s_just | auto]. Qed.
Definition okal (t : ty) : Prop := wfty t = true /\ noarr t = true.
Lemma s_alloc n : sound (alloc n) okal.
Proof.
  induction n as [|n IH]; [apply s_fuel|]. cbn [alloc]. unfold alloc_f. apply s_stars; [|intros t H; exact H].
  apply s_orelse; [apply (s_weaken _ _ _ s_named); unfold okal; tauto|].
  apply s_tuple_ty; [exact IH|]. intros l Hl. split; cbn; apply Forall_b; revert Hl; apply Forall_impl; intros t []; auto.
Qed.

(** ** Expressions *)
Section ExprSound.
Variable self : parser expr.
Hypothesis Hself : sound self (fun e => wfe e = true).
Definition at_level (k : nat) (e : expr) : Prop := wfe e = true /\ k <= lv e.

Lemma s_atom : sound (atom self) (at_level 8).
Proof.
  unfold atom. repeat apply s_orelse.
  - unfold lit_p. apply (s_bind _ _ _ _ s_num). intros [v s] Hv. cbn [fst snd] in *.
    destruct (suffix_ok s) eqn:E; [|apply s_fail]. apply s_ret. split; [|cbn; lia]. cbn. rewrite Hv, E. reflexivity.
  - unfold bool_p. apply (s_bind _ _ (fun _ => True)); [apply s_oneof; repeat constructor|].
    intros b _. apply s_ret. split; [reflexivity | cbn; lia].
  - unfold new_p. apply s_after. apply (s_bind _ _ okal); [apply s_fueled, s_alloc|]. intros t [Ht1 Ht2].
    apply (s_bind _ _ (fun e => wfe e = true)); [apply s_delim, Hself|]. intros e He. apply s_ret.
    split; [|cbn; lia]. cbn. rewrite Ht1, Ht2, He. reflexivity.
  - unfold struct_p. apply (s_bind _ _ _ _ s_ident). intros x Hx.
    apply (s_bind _ _ (Forall (fun fe => idok (fst fe) && wfe (snd fe) = true))).
    + apply s_delim, s_sept. unfold field_p. apply (s_bind _ _ _ _ s_ident). intros y Hy. apply s_after.
      apply (s_bind _ _ _ _ Hself). intros e He. apply s_ret. cbn. rewrite Hy, He. reflexivity.
    + intros fs Hfs. apply s_ret. split; [|cbn; lia]. cbn. rewrite Hx. apply Forall_b in Hfs. exact Hfs.
  - unfold rep_p. apply s_after. apply (s_bind _ _ _ _ Hself). intros e He. apply s_after.
    apply (s_bind _ _ _ _ s_num). intros [v s] Hv. apply s_after. destruct s; [apply s_fail|]. apply s_ret.
    split; [|cbn; lia]. cbn in *. rewrite He, Hv. reflexivity.
  - unfold arr_p. apply (s_bind _ _ (Forall (fun e => wfe e = true))); [apply s_delim, s_sept, Hself|].
    intros es Hes. apply s_ret. split; [|cbn; lia]. apply Forall_b, Hes.
  - unfold id_p. apply (s_bind _ _ _ _ s_ident). intros x Hx. apply s_ret. split; [exact Hx | cbn; lia].
  - unfold paren_p. apply s_after. apply s_orelse; [apply s_before; split; [reflexivity | cbn; lia]|].
    apply (s_bind _ _ _ _ Hself). intros e He ts a r Ht E.
    destruct ts as [|[| |k] ts]; try discriminate. destruct k; try discriminate.
    + inversion E; subst. inversion Ht; subst. split; [|assumption]. split; [exact He | cbn; lia].
    + revert E. match goal with |- ?p _ = _ -> _ => assert (Hp : sound p (at_level 8)) end; [|apply Hp, Ht].
      apply (s_bind _ _ (Forall (fun e => wfe e = true))); [apply s_repeated, s_after, Hself|]. intros l Hl.
      apply (s_bind _ _ (fun _ => True)); [apply (s_weaken _ (on_some (fun _ => True))); [apply s_opt, s_just | auto]|].
      intros _ _. apply s_before. split; [|cbn; lia]. cbn. rewrite He. apply Forall_b, Hl.
Qed.
Definition okpost (p : post) : Prop :=
  match p with
  | PCall es => forallb wfe es = true
  | PMem f => idok f = true
  | PIdx i => wfe i = true
  | PTup i => numok i = true
  end.
Lemma s_post_p : sound (post_p self) okpost.
Proof.
  unfold post_p. repeat apply s_orelse.
  - unfold call_p. apply (s_bind _ _ (Forall (fun e => wfe e = true))); [apply s_delim, s_sept, Hself|].
    intros es Hes. apply s_ret. apply Forall_b, Hes.
  - unfold tup_p. apply s_after. apply (s_bind _ _ _ _ s_num). intros [v s] Hv. cbn [fst snd] in *.
    destruct s; [apply s_fail | apply s_ret; exact Hv].
  - unfold mem_p. apply s_after. apply (s_bind _ _ _ _ s_ident). intros f Hf. apply s_ret, Hf.
  - unfold idx_p. apply (s_bind _ _ (fun e => wfe e = true)); [apply s_delim, Hself|]. intros i Hi. apply s_ret, Hi.
Qed.
Lemma s_post : sound (post_e self) (at_level 7).
Proof.
  unfold post_e. apply (s_foldl _ _ _ _ okpost).
  - apply (s_weaken _ _ _ s_atom). intros e []. split; [assumption | lia].
  - apply s_post_p.
  - intros e p [He Hl] Hp. apply Nat.leb_le in Hl. destruct p; cbn in Hp; split; cbn [apply_post wfe lv]; try lia;
      rewrite Hl, He, Hp; reflexivity.
Qed.
Lemma s_unary : sound (unary_e self) (at_level 6).
Proof.
  unfold unary_e. apply (s_bind _ _ (fun _ => True)).
  { apply (s_weaken _ (Forall (fun _ => True))); [apply s_repeated, s_oneof; repeat constructor | auto]. }
  intros ops _. apply (s_bind _ _ _ _ s_post). intros e [He Hl]. apply s_ret.
  induction ops as [|o ops IH]; cbn [fold_right]; [split; [exact He | lia]|].
  destruct IH as [IH1 IH2]. apply Nat.leb_le in IH2. split; [|cbn; lia]. cbn [wfe]. rewrite IH1, IH2. reflexivity.
Qed.
Lemma s_cast : sound (cast_e self) (at_level 5).
Proof.
  unfold cast_e. apply (s_foldl _ _ _ _ (fun t => wfty t = true /\ noarr t = true /\ is_named t = true)).
  - apply (s_weaken _ _ _ s_unary). intros e []. split; [assumption | lia].
  - apply s_after, s_named.
  - intros e t [He Hl] (Ht & _ & Hn). apply Nat.leb_le in Hl. split; [|cbn; lia]. cbn [wfe]. rewrite Hl, He, Hn, Ht. reflexivity.
Qed.
Lemma s_Pk k : k <= 5 -> sound (Pk k self) (at_level k).
Proof.
  intro Hk. remember (5 - k) as d eqn:Ed. revert k Hk Ed. induction d as [|d IH]; intros k Hk Ed.
  - replace k with 5 by lia. apply s_cast.
  - rewrite Pk_tier by lia. unfold tier. specialize (IH (S k) ltac:(lia) ltac:(lia)).
    apply (s_foldl _ _ _ _ (fun oe => btier (fst oe) = k /\ at_level (S k) (snd oe))).
    + apply (s_weaken _ _ _ IH). intros e []. split; [assumption | lia].
    + apply (s_bind _ _ (fun o => btier o = k)).
      * apply s_oneof. do 5 (destruct k as [|k]; [repeat constructor|]). lia.
      * intros o Ho. apply (s_bind _ _ _ _ IH). intros e He. apply s_ret. cbn. auto.
    + intros l [o r] [Hl1 Hl2] [Ho [Hr1 Hr2]]. cbn [fst snd] in *. split; [|cbn; lia]. cbn [wfe].
      rewrite Hl1, Hr1, Ho. rewrite (proj2 (Nat.leb_le _ _) Hl2). unfold Nat.ltb. rewrite (proj2 (Nat.leb_le _ _) Hr2). reflexivity.
Qed.
End ExprSound.
Lemma s_expr_n n : sound (expr_n n) (fun e => wfe e = true).
Proof.
  induction n as [|n IH]; [apply s_fuel|]. cbn [expr_n].
  apply (s_weaken _ (at_level 0)); [apply (s_Pk (expr_n n) IH 0); lia | intros e []; assumption].
Qed.
Lemma s_expr : sound expr_p (fun e => wfe e = true).
Proof. apply s_fueled, s_expr_n. Qed.

(** ** Types, patterns, simple statements *)
Lemma s_size : sound size_p (fun n => numok n = true).
Proof.
  unfold size_p. apply (s_bind _ _ _ _ s_expr). intros e He.
  destruct e as [v [s|]| | | | | | | | | | | | | | |]; try apply s_fail. apply s_ret.
  cbn in He. apply andb_prop in He as [He _]. exact He.
Qed.
Lemma s_ty_n n : sound (ty_n n) (fun t => wfty t = true).
Proof.
  induction n as [|n IH]; [apply s_fuel|]. cbn [ty_n]. unfold ty_f. apply s_stars; [|intros t H; exact H].
  apply s_orelse; [apply (s_weaken _ _ _ s_named); tauto|]. apply s_orelse.
  - unfold arr_ty. apply s_after. apply (s_bind _ _ _ _ IH). intros t Ht. apply s_after.
    apply (s_bind _ _ _ _ s_size). intros v Hv. apply s_before. cbn. rewrite Ht, Hv. reflexivity.
  - apply s_tuple_ty; [exact IH|]. intros l Hl. apply Forall_b, Hl.
Qed.
Lemma s_ty : sound ty_p (fun t => wfty t = true).
Proof. apply s_fueled, s_ty_n. Qed.
Lemma s_pat : sound pat_p (fun p => wfp p = true).
Proof.
  apply s_fueled. intro n. induction n as [|n IH]; [apply s_fuel|]. cbn [pat_n]. unfold pat_f. apply s_orelse.
  - apply (s_bind _ _ (fun l => wfp (PTuple l) = true)).
    + apply s_delim. apply (s_bind _ _ _ _ (s_sep KComma _ _ IH)). intros [|a [|b l]] Hl; try apply s_fail.
      apply s_ret. apply Forall_b in Hl. exact Hl.
    + intros l Hl. apply s_ret, Hl.
  - apply (s_bind _ _ _ _ s_ident). intros x Hx. apply s_ret, Hx.
Qed.
Lemma s_ann : sound ann_p (fun t => all_opt wfty t = true).
Proof. unfold ann_p. apply (s_weaken _ (on_some (fun t => wfty t = true))); [apply s_opt, s_after, s_ty|].
  intros [t|]; cbn; auto. Qed.
Lemma s_let : sound let_p (fun s => wfs s = true /\ is_init s = true /\ openif s = false).
Proof.
  unfold let_p. apply s_after. apply (s_bind _ _ _ _ s_pat). intros p Hp. apply (s_bind _ _ _ _ s_ann). intros t Ht.
  apply s_after. apply (s_bind _ _ _ _ s_expr). intros e He. apply s_before. cbn. rewrite Hp, Ht, He. auto.
Qed.
Lemma s_const : sound const_p (fun c => wfc c = true).
Proof.
  unfold const_p. apply s_after. apply (s_bind _ _ _ _ s_ident). intros x Hx. apply (s_bind _ _ _ _ s_ann). intros t Ht.
  apply s_after. apply (s_bind _ _ _ _ s_expr). intros e He. apply s_before. unfold wfc. cbn. rewrite Hx, Ht, He. auto.
Qed.
Lemma s_cond : sound cond_p (fun e => wfe e = true).
Proof. apply s_orelse; [apply s_delim, s_expr | apply s_expr]. Qed.
Lemma s_simple : sound simple_p (fun s => wfs s = true /\ is_simple s = true).
Proof.
  unfold simple_p. apply (s_bind _ _ _ _ s_expr). intros l Hl.
  apply (s_bind _ _ (on_some (fun e => wfe e = true))); [apply s_opt, s_after, s_expr|].
  intros [r|] Hr; apply s_ret; cbn in *; rewrite Hl; auto.
Qed.
Lemma s_simple_semi : sound simple_semi (fun s => wfs s = true /\ is_simple s = true).
Proof. unfold simple_semi. apply (s_bind _ _ _ _ s_simple). intros s Hs. apply s_before, Hs. Qed.

(** ** More fuel, same answer *)
Definition fle {A} (p q : parser A) : Prop := forall ts, p ts <> PFuel -> q ts = p ts.
Lemma fle_bind {A B} (p q : parser A) (k j : A -> parser B) :
  fle p q -> (forall a, fle (k a) (j a)) -> fle (bind p k) (bind q j).
Proof.
  intros Hp Hk ts. unfold bind. intro H. destruct (p ts) as [a r| |] eqn:E; rewrite (Hp ts) by congruence; rewrite E.
  - apply Hk, H.
  - reflexivity.
  - congruence.
Qed.
Lemma fle_refl {A} (p : parser A) : fle p p.
Proof. intros ts _. reflexivity. Qed.
Lemma fle_orelse {A} (p q p' q' : parser A) : fle p p' -> fle q q' -> fle (orelse p q) (orelse p' q').
Proof.
  intros Hp Hq ts. unfold orelse. intro H. destruct (p ts) as [a r| |] eqn:E; rewrite (Hp ts) by congruence; rewrite E; auto.
Qed.
Lemma fle_opt {A} (p q : parser A) : fle p q -> fle (opt p) (opt q).
Proof. intros Hp ts. unfold opt. intro H. destruct (p ts) as [a r| |] eqn:E; rewrite (Hp ts) by congruence; rewrite E; auto. Qed.
Lemma fle_many {A} (p q : parser A) : fle p q -> forall n, fle (many n p) (many n q).
Proof.
  intros Hp n. induction n as [|n IH]; intros ts H; [reflexivity|]. cbn in *.
  destruct (p ts) as [a r| |] eqn:E; rewrite (Hp ts) by congruence; rewrite E; auto.
  assert (many n p r <> PFuel) by (intro E2; rewrite E2 in H; congruence). rewrite (IH r) by assumption. reflexivity.
Qed.
Lemma fle_repeated {A} (p q : parser A) : fle p q -> fle (repeated p) (repeated q).
Proof. intros Hp ts. apply (fle_many p q Hp). Qed.
Ltac fle_tac H := repeat first
  [ exact H | apply fle_refl | apply fle_orelse | apply fle_opt | apply fle_repeated
  | apply fle_bind; [| let a := fresh in intro a; cbv beta] ].
Lemma fle_stmt_f p q : fle p q -> fle (stmt_f p) (stmt_f q).
Proof.
  intro H. unfold stmt_f. unfold block_p, if_p, loop_p, while_p, for_p, delim. fle_tac H.
Qed.
Lemma fle_stmt_n n : fle (stmt_n n) (stmt_n (S n)).
Proof.
  induction n as [|n IH]; [intros ts H; exfalso; apply H; reflexivity|].
  change (fle (stmt_f (stmt_n n)) (stmt_f (stmt_n (S n)))). apply fle_stmt_f, IH.
Qed.
Lemma stmt_n_more n d ts : stmt_n n ts <> PFuel -> stmt_n (d + n) ts = stmt_n n ts.
Proof.
  induction d as [|d IH]; intro H; [reflexivity|]. cbn [Nat.add]. rewrite (fle_stmt_n (d + n) ts); auto.
  rewrite IH by exact H. exact H.
Qed.
Lemma stmt_n_agree n m ts : stmt_n n ts <> PFuel -> stmt_n m ts <> PFuel -> stmt_n n ts = stmt_n m ts.
Proof.
  intros Hn Hm. rewrite <- (stmt_n_more n m ts Hn), <- (stmt_n_more m n ts Hm), Nat.add_comm. reflexivity.
Qed.

(** ** Statements *)
(** No [else] branch can be read here. *)
Definition no_else (r : list token) : Prop := forall n b r', (just KElse ;; stmt_n n) r <> POk b r'.
Definition ssound (p : parser stmt) : Prop := forall ts s r, Forall tokok ts -> p ts = POk s r ->
  wfs s = true /\ (openif s = true -> no_else r) /\ Forall tokok r.
Lemma ss_closed p : sound p (fun s => wfs s = true /\ openif s = false) -> ssound p.
Proof. intros H ts s r Ht E. destruct (H ts s r Ht E) as [[H1 H2] H3]. repeat split; auto. congruence. Qed.
Lemma ss_orelse p q : ssound p -> ssound q -> ssound (orelse p q).
Proof. intros Hp Hq ts a r Ht E. apply orelse_ok in E as [E | [_ E]]; eauto. Qed.
Lemma ss_sound p : ssound p -> sound p (fun s => wfs s = true).
Proof. intros H ts s r Ht E. destruct (H ts s r Ht E) as (H1 & _ & H3). auto. Qed.
Lemma ss_bind {A} (p : parser A) (k : A -> parser stmt) Q :
  sound p Q -> (forall a, Q a -> ssound (k a)) -> ssound (bind p k).
Proof. intros Hp Hk ts b r Ht E. apply bind_ok in E as (a & r1 & E1 & E2).
  destruct (Hp _ _ _ Ht E1) as [Ha H1]. exact (Hk a Ha _ _ _ H1 E2). Qed.
Lemma ss_tail (p : parser stmt) f : ssound p ->
  (forall b, wfs b = true -> wfs (f b) = true) -> (forall b, openif (f b) = openif b) ->
  ssound (b <- p ;; ret (f b)).
Proof.
  intros Hp Hw Ho ts s r Ht E. apply bind_ok in E as (b & r1 & E1 & E2). inversion E2; subst.
  destruct (Hp _ _ _ Ht E1) as (H1 & H2 & H3). rewrite Ho. auto.
Qed.
Lemma ss_if n : ssound (stmt_n n) -> ssound (if_p (stmt_n n)).
Proof.
  intro H. unfold if_p. apply (ss_bind _ _ (fun _ => True)); [apply s_just|]. intros _ _.
  apply (ss_bind _ _ _ s_cond). intros c Hc ts s r Ht E.
  apply bind_ok in E as (a & r1 & E1 & E). apply bind_ok in E as (b & r2 & E2 & E). inversion E; subst. clear E.
  destruct (H _ _ _ Ht E1) as (Wa & Oa & Hr1).
  apply opt_ok in E2 as [(b1 & -> & E2) | (-> & -> & E2)].
  - assert (Ha : openif a = false).
    { destruct (openif a); [|reflexivity]. exfalso. exact (Oa eq_refl n b1 r E2). }
    apply bind_ok in E2 as (u & r3 & E2 & E3).
    destruct (s_just KElse _ _ _ Hr1 E2) as [_ Hr3]. destruct (H _ _ _ Hr3 E3) as (Wb & Ob & Hr).
    cbn [wfs openif]. rewrite Hc, Wa, Ha, Wb. auto.
  - cbn [wfs openif]. rewrite Hc, Wa. repeat split; auto. intros _ m b r' E.
    unfold bind in E2, E. destruct (just KElse r1) as [u r3| |] eqn:Ej; try congruence.
    rewrite (stmt_n_agree n m) in E2 by congruence. congruence.
Qed.
Lemma ss_stmt_n n : ssound (stmt_n n).
Proof.
  induction n as [|n IH]; [intros ts s r _ E; discriminate|]. cbn [stmt_n]. unfold stmt_f. repeat apply ss_orelse.
  - apply ss_closed. unfold block_p. apply (s_bind _ _ (Forall (fun s => wfs s = true))).
    + apply s_delim, s_repeated, ss_sound, IH.
    + intros l Hl. apply s_ret. split; [apply Forall_b, Hl | reflexivity].
  - apply ss_if, IH.
  - unfold loop_p. apply (ss_bind _ _ (fun _ => True)); [apply s_just|]. intros _ _. apply (ss_tail _ SLoop); auto.
  - unfold while_p. apply (ss_bind _ _ (fun _ => True)); [apply s_just|]. intros _ _.
    apply (ss_bind _ _ _ s_cond). intros c Hc. apply (ss_tail _ (SWhile c)); auto. intros b Hb. cbn. rewrite Hc, Hb. reflexivity.
  - unfold for_p. do 2 (apply (ss_bind _ _ (fun _ => True)); [apply s_just|]; intros _ _).
    apply (ss_bind _ _ (fun s => wfs s = true /\ is_init s = true)).
    { apply s_orelse; [apply (s_weaken _ _ _ s_let); tauto|]. apply (s_weaken _ _ _ s_simple_semi).
      intros s [H1 H2]. split; [exact H1|]. destruct s; try discriminate; reflexivity. }
    intros i [Hi1 Hi2]. apply (ss_bind _ _ _ s_expr). intros c Hc.
    apply (ss_bind _ _ (fun _ => True)); [apply s_just|]. intros _ _.
    apply (ss_bind _ _ _ s_simple). intros st [Hs1 Hs2].
    apply (ss_bind _ _ (fun _ => True)); [apply s_just|]. intros _ _.
    apply (ss_tail _ (SFor i c st)); auto. intros b Hb. cbn [wfs]. rewrite Hi1, Hi2, Hc, Hs1, Hs2, Hb. reflexivity.
  - apply ss_closed. unfold break_p. apply s_after, s_before. auto.
  - apply ss_closed. unfold continue_p. apply s_after, s_before. auto.
  - apply ss_closed. apply (s_weaken _ _ _ s_let). tauto.
  - apply ss_closed. apply (s_bind _ _ _ _ s_const). intros c Hc. apply s_ret. auto.
  - apply ss_closed. unfold return_p. apply s_after.
    apply (s_bind _ _ (on_some (fun e => wfe e = true))); [apply s_opt, s_expr|]. intros o Ho. apply s_before.
    split; [|reflexivity]. destruct o; [exact Ho | reflexivity].
  - apply ss_closed. apply (s_weaken _ _ _ s_simple_semi). intros s [H1 H2]. split; [exact H1|].
    destruct s; try discriminate; reflexivity.
Qed.
Lemma s_stmt : sound stmt_p (fun s => wfs s = true).
Proof. apply s_fueled. intro n. apply ss_sound, ss_stmt_n. Qed.

(** ** Items *)
Lemma s_typed : sound typed_name (fun p => wftn p = true).
Proof.
  unfold typed_name. apply (s_bind _ _ _ _ s_ident). intros x Hx. apply s_after.
  apply (s_bind _ _ _ _ s_ty). intros t Ht. apply s_ret. unfold wftn. cbn. rewrite Hx, Ht. reflexivity.
Qed.
Lemma s_path : sound path_p (fun l => l <> [] /\ Forall (fun x => idok x = true) l).
Proof. unfold path_p. apply (s_bind _ _ _ _ (s_sep KColons _ _ s_ident)). intros [|a l] Hl; [apply s_fail | apply s_ret].
  split; [discriminate | exact Hl]. Qed.
Lemma s_item : sound item_p (fun i => wfi i = true).
Proof.
  unfold item_p. repeat apply s_orelse.
  - apply (s_bind _ _ (fun f => wfi (IFn f) = true)); [|intros f Hf; apply s_ret, Hf].
    unfold fn_p. apply s_after. apply (s_bind _ _ _ _ s_ident). intros x Hx.
    apply (s_bind _ _ (Forall (fun p => wftn p = true))); [apply s_delim, s_sept, s_typed|]. intros prm Hp.
    apply (s_bind _ _ (on_some (fun t => wfty t = true))); [apply s_opt, s_after, s_ty|]. intros t Ht.
    apply (s_bind _ _ (Forall (fun s => wfs s = true))); [apply s_delim, s_repeated, s_stmt|]. intros b Hb.
    apply s_ret. cbn [wfi f_name f_params f_ret f_body]. apply Forall_b in Hp, Hb. rewrite Hx, Hp, Hb.
    destruct t; cbn in Ht; [rewrite Ht|]; reflexivity.
  - apply (s_bind _ _ (fun f => wfi (IStruct f) = true)); [|intros f Hf; apply s_ret, Hf].
    unfold struct_def. apply s_after. apply (s_bind _ _ _ _ s_ident). intros x Hx.
    apply (s_bind _ _ (Forall (fun p => wftn p = true))); [apply s_delim, s_sept, s_typed|]. intros fs Hf.
    apply s_ret. cbn. apply Forall_b in Hf. rewrite Hx, Hf. reflexivity.
  - apply (s_bind _ _ _ _ s_const). intros c Hc. apply s_ret, Hc.
  - apply (s_bind _ _ (fun u => wfi (IUse u) = true)); [|intros u Hu; apply s_ret, Hu].
    unfold use_p. apply s_after, s_orelse.
    + unfold single_p. apply (s_bind _ _ _ _ s_path). intros l [Hne Hl]. apply s_before.
      cbn [wfi u_path u_items]. rewrite (app_removelast_last EmptyString Hne) in Hl. apply Forall_app in Hl as [H1 H2].
      apply Forall_b in H1. rewrite H1. inversion H2; subst. assumption.
    + unfold list_p. apply (s_bind _ _ _ _ s_path). intros l [Hne Hl]. apply s_after.
      apply (s_bind _ _ (Forall (fun x => idok x = true))); [apply s_delim, s_sept, s_ident|]. intros xs Hxs.
      apply s_before. cbn. apply Forall_b in Hl, Hxs. rewrite Hl, Hxs. reflexivity.
Qed.
Lemma module_sound ts m r : Forall tokok ts -> module_p ts = POk m r -> forallb wfi m = true.
Proof.
  intros Ht E. unfold module_p in E. destruct (repeated item_p ts) as [m1 [|t r1]| |] eqn:E1; try discriminate.
  inversion E; subst. destruct (s_repeated _ _ s_item _ _ _ Ht E1) as [H _]. apply Forall_b, H.
Qed.
