(** The parser consumes its input and never runs out of fuel. *)
From Coq Require Import NArith Bool Ascii String List Lia.
From Verif Require Import Lex Syn Parse.
Import ListNotations.

(** On success, something (or possibly nothing) is consumed. *)
Definition shr {A} (p : parser A) := forall ts a r, p ts = POk a r -> length r < length ts.
Definition shr0 {A} (p : parser A) := forall ts a r, p ts = POk a r -> length r <= length ts.
(** Fuel does not run out on inputs of at most [m] tokens. *)
Definition tot (m : nat) {A} (p : parser A) := forall ts, length ts <= m -> p ts <> PFuel.

Lemma shr_shr0 {A} (p : parser A) : shr p -> shr0 p.
Proof. intros H ts a r E. apply H in E. lia. Qed.

Lemma bind_ok {A B} (p : parser A) (k : A -> parser B) ts b r :
  bind p k ts = POk b r -> exists a r1, p ts = POk a r1 /\ k a r1 = POk b r.
Proof. unfold bind. destruct (p ts); try discriminate. eauto. Qed.
Lemma orelse_ok {A} (p q : parser A) ts a r :
  orelse p q ts = POk a r -> p ts = POk a r \/ p ts = PFail /\ q ts = POk a r.
Proof. unfold orelse. destruct (p ts); try discriminate; auto. Qed.
Lemma opt_ok {A} (p : parser A) ts a r :
  opt p ts = POk a r -> (exists x, a = Some x /\ p ts = POk x r) \/ (a = None /\ r = ts /\ p ts = PFail).
Proof. unfold opt. destruct (p ts); intro H; inversion H; subst; eauto. Qed.

Lemma shr_bind {A B} (p : parser A) (k : A -> parser B) :
  shr p -> (forall a, shr0 (k a)) -> shr (bind p k).
Proof. intros Hp Hk ts b r H. apply bind_ok in H as (a & r1 & H1 & H2).
  apply Hp in H1. apply Hk in H2. lia. Qed.
Lemma shr_bind2 {A B} (p : parser A) (k : A -> parser B) :
  shr0 p -> (forall a, shr (k a)) -> shr (bind p k).
Proof. intros Hp Hk ts b r H. apply bind_ok in H as (a & r1 & H1 & H2).
  apply Hp in H1. apply Hk in H2. lia. Qed.
Lemma shr0_bind {A B} (p : parser A) (k : A -> parser B) :
  shr0 p -> (forall a, shr0 (k a)) -> shr0 (bind p k).
Proof. intros Hp Hk ts b r H. apply bind_ok in H as (a & r1 & H1 & H2).
  apply Hp in H1. apply Hk in H2. lia. Qed.
Lemma shr_orelse {A} (p q : parser A) : shr p -> shr q -> shr (orelse p q).
Proof. intros Hp Hq ts a r H. apply orelse_ok in H as [H | [_ H]]; eauto. Qed.
Lemma shr0_opt {A} (p : parser A) : shr p -> shr0 (opt p).
Proof. intros Hp ts a r H. apply opt_ok in H as [(x & -> & H) | (-> & -> & _)]; [apply Hp in H |]; lia. Qed.
Lemma shr0_ret {A} (a : A) : shr0 (ret a).
Proof. intros ts b r H. inversion H. lia. Qed.
Lemma shr_fail {A} : shr (@fail A).
Proof. intros ts b r H. discriminate. Qed.
Lemma shr_just k : shr (just k).
Proof. intros ts a r H. unfold just in H. destruct ts as [|[| |j] t]; try discriminate.
  destruct (kw_eqb k j); inversion H. cbn. lia. Qed.
Lemma shr_ident : shr ident.
Proof. intros ts a r H. unfold ident in H. destruct ts as [|[| |] t]; inversion H. cbn. lia. Qed.
Lemma shr_num : shr num.
Proof. intros ts a r H. unfold num in H. destruct ts as [|[| |] t]; inversion H. cbn. lia. Qed.
Lemma shr_oneof {A} (l : list (kw * A)) : shr (oneof l).
Proof. intros ts a r H. unfold oneof in H. destruct ts as [|[| |k] t]; try discriminate.
  destruct (pick k l); inversion H. cbn. lia. Qed.
Lemma shr0_many {A} (p : parser A) : shr p -> forall n, shr0 (many n p).
Proof.
  intros Hp n. induction n as [|n IH]; intros ts a r H; cbn in H; [discriminate|].
  destruct (p ts) as [x r1| |] eqn:E; try discriminate.
  - destruct (many n p r1) as [l r2| |] eqn:E2; try discriminate.
    inversion H; subst. apply Hp in E. apply IH in E2. lia.
  - inversion H. lia.
Qed.
Lemma shr0_repeated {A} (p : parser A) : shr p -> shr0 (repeated p).
Proof. intros Hp ts a r H. unfold repeated in H. apply (shr0_many p Hp) in H. exact H. Qed.

Lemma tot_bind m {A B} (p : parser A) (k : A -> parser B) :
  tot m p -> shr0 p -> (forall a, tot m (k a)) -> tot m (bind p k).
Proof. intros Hp Hs Hk ts Hl. unfold bind. destruct (p ts) as [a r| |] eqn:E.
  - apply Hk. apply Hs in E. lia.
  - discriminate.
  - exfalso. exact (Hp ts Hl E). Qed.
(** After a token has been consumed, a shorter bound is enough. *)
Lemma tot_next m {A B} (p : parser A) (k : A -> parser B) :
  tot (S m) p -> shr p -> (forall a, tot m (k a)) -> tot (S m) (bind p k).
Proof. intros Hp Hs Hk ts Hl. unfold bind. destruct (p ts) as [a r| |] eqn:E.
  - apply Hk. apply Hs in E. lia.
  - discriminate.
  - exfalso. exact (Hp ts Hl E). Qed.
Lemma tot_nil {A B} (p : parser A) (k : A -> parser B) : tot 0 p -> shr p -> tot 0 (bind p k).
Proof. intros Hp Hs ts Hl. unfold bind. destruct (p ts) as [a r| |] eqn:E.
  - apply Hs in E. lia.
  - discriminate.
  - exfalso. exact (Hp ts Hl E). Qed.
Lemma tot_orelse m {A} (p q : parser A) : tot m p -> tot m q -> tot m (orelse p q).
Proof. intros Hp Hq ts Hl. unfold orelse. destruct (p ts) eqn:E; try discriminate; auto.
  exfalso. exact (Hp ts Hl E). Qed.
Lemma tot_opt m {A} (p : parser A) : tot m p -> tot m (opt p).
Proof. intros Hp ts Hl. unfold opt. destruct (p ts) eqn:E; try discriminate.
  exfalso. exact (Hp ts Hl E). Qed.
Lemma tot_ret m {A} (a : A) : tot m (ret a).
Proof. intros ts _. discriminate. Qed.
Lemma tot_fail m {A} : tot m (@fail A).
Proof. intros ts _. discriminate. Qed.
Lemma tot_just m k : tot m (just k).
Proof. intros ts _. unfold just. destruct ts as [|[| |j] t]; try discriminate.
  destruct (kw_eqb k j); discriminate. Qed.
Lemma tot_ident m : tot m ident.
Proof. intros ts _. unfold ident. destruct ts as [|[| |] t]; discriminate. Qed.
Lemma tot_num m : tot m num.
Proof. intros ts _. unfold num. destruct ts as [|[| |] t]; discriminate. Qed.
Lemma tot_oneof m {A} (l : list (kw * A)) : tot m (oneof l).
Proof. intros ts _. unfold oneof. destruct ts as [|[| |k] t]; try discriminate.
  destruct (pick k l); discriminate. Qed.
Lemma tot_many {A} (p : parser A) : shr p -> forall n m ts,
  tot m p -> length ts <= m -> length ts < n -> many n p ts <> PFuel.
Proof.
  intros Hs n. induction n as [|n IH]; intros m ts Hp Hm Hn; [lia|]. cbn.
  destruct (p ts) as [a r| |] eqn:E; try discriminate.
  - pose proof (Hs _ _ _ E). specialize (IH m r Hp ltac:(lia) ltac:(lia)).
    destruct (many n p r); try discriminate. congruence.
  - exfalso. exact (Hp ts Hm E).
Qed.
Lemma tot_repeated m {A} (p : parser A) : shr p -> tot m p -> tot m (repeated p).
Proof. intros Hs Hp ts Hl. unfold repeated. apply (tot_many p Hs _ m); auto. Qed.
Lemma tot_le m n {A} (p : parser A) : tot n p -> m <= n -> tot m p.
Proof. intros H Hl ts Ht. apply H. lia. Qed.

(** Unfolding [repeated]. *)
Lemma many_fuel {A} (p : parser A) : shr p -> forall n m ts,
  length ts < n -> length ts < m -> many n p ts = many m p ts.
Proof.
  intros Hs n. induction n as [|n IH]; intros m ts Hn Hm; [lia|].
  destruct m as [|m]; [lia|]. cbn. destruct (p ts) as [a r| |] eqn:E; auto.
  pose proof (Hs _ _ _ E). rewrite (IH m r) by lia. reflexivity.
Qed.
Lemma repeated_cons {A} (p : parser A) ts a r : shr p -> p ts = POk a r ->
  repeated p ts = match repeated p r with POk l r' => POk (a :: l) r' | PFail => PFail | PFuel => PFuel end.
Proof.
  intros Hs E. pose proof (Hs _ _ _ E) as Hl. unfold repeated at 1. cbn [many]. rewrite E.
  unfold repeated. rewrite (many_fuel p Hs (length ts) (S (length r)) r) by lia. reflexivity.
Qed.
Lemma repeated_nil {A} (p : parser A) ts : p ts = PFail -> repeated p ts = POk [] ts.
Proof. intro E. unfold repeated. cbn [many]. rewrite E. reflexivity. Qed.

(** ** Every parser consumes *)
Create HintDb shr discriminated.
#[export] Hint Resolve shr_orelse shr0_opt shr0_ret shr_fail shr_just shr_ident shr_num shr_oneof
  shr0_repeated shr_shr0 : shr.
Ltac consumes := repeat first
  [ apply shr0_ret | apply shr_just | apply shr_ident | apply shr_num | apply shr_oneof
  | apply shr_fail | apply shr_orelse | assumption
  | apply shr_bind; [| let a := fresh in intro a; cbv beta]
  | apply shr0_bind; [| let a := fresh in intro a; cbv beta]
  | apply shr0_opt | apply shr0_repeated | apply shr_shr0 ].

Lemma shr0_sep {A} k (p : parser A) : shr p -> shr0 (sep k p).
Proof.
  intro Hp. unfold sep. apply shr0_bind; [apply shr0_opt; exact Hp|]. intros [hd|]; [|apply shr0_ret].
  consumes.
Qed.
Lemma shr0_sept {A} k (p : parser A) : shr p -> shr0 (sept k p).
Proof.
  intro Hp. unfold sept. apply shr0_bind; [apply shr0_sep; exact Hp|]. intros [|hd tl]; [apply shr0_ret|].
  consumes.
Qed.
Lemma shr_delim {A} a b (p : parser A) : shr0 p -> shr (delim a b p).
Proof. intro Hp. unfold delim. apply shr_bind; [apply shr_just|]. intro. apply shr0_bind; [exact Hp|].
  intro. consumes. Qed.
Lemma shr_foldl {A B} (p : parser A) (q : parser B) f : shr p -> shr q -> shr (foldl p q f).
Proof. intros Hp Hq. unfold foldl. apply shr_bind; [exact Hp|]. intro. consumes. Qed.
Lemma shr_fueled {A} (p : nat -> parser A) : (forall n, shr (p n)) -> shr (fueled p).
Proof. intros H ts a r E. unfold fueled in E. apply H in E. exact E. Qed.

Lemma shr_named_ty : shr named_ty.
Proof. unfold named_ty. consumes. Qed.
Lemma shr_tuple_ty self : shr self -> shr (tuple_ty self).
Proof. intro H. unfold tuple_ty. apply shr_bind; [apply shr_just|]. intro.
  apply shr0_bind; [apply shr0_sep; exact H|]. intro. consumes. Qed.
Lemma shr_alloc n : shr (alloc n).
Proof. induction n as [|n IH]; [intros ts a r E; discriminate|].
  cbn [alloc]. unfold alloc_f, stars. apply shr_foldl; [|apply shr_just].
  apply shr_orelse; [apply shr_named_ty | apply shr_tuple_ty, IH]. Qed.

Section Expr.
Variable self : parser expr.
Hypothesis Hself : shr self.
Let Hself0 : shr0 self := shr_shr0 _ Hself.

Lemma shr_lit : shr lit_p.
Proof. unfold lit_p. apply shr_bind; [apply shr_num|]. intro nv. destruct (suffix_ok (snd nv)); [apply shr0_ret | apply shr_shr0, shr_fail]. Qed.
Lemma shr_new : shr (new_p self).
Proof. unfold new_p. apply shr_bind; [apply shr_just|]. intro.
  apply shr0_bind; [apply shr_shr0, shr_fueled, shr_alloc|]. intro.
  apply shr0_bind; [apply shr_shr0, shr_delim, Hself0|]. intro. apply shr0_ret. Qed.
Lemma shr_field : shr (field_p self).
Proof. unfold field_p. consumes. Qed.
Lemma shr_struct : shr (struct_p self).
Proof. unfold struct_p. apply shr_bind; [apply shr_ident|]. intro.
  apply shr0_bind; [apply shr_shr0, shr_delim, shr0_sept, shr_field|]. intro. apply shr0_ret. Qed.
Lemma shr_comma : shr (just KComma ;; self).
Proof. consumes. Qed.
Lemma shr_paren : shr (paren_p self).
Proof.
  unfold paren_p. apply shr_bind; [apply shr_just|]. intro. apply shr_shr0, shr_orelse; [consumes|].
  apply shr_bind; [exact Hself|]. intros e ts b r H.
  destruct ts as [|[| |k] ts]; try discriminate. destruct k; try discriminate.
  - inversion H. cbn. lia.
  - revert H. match goal with |- ?p _ = _ -> _ => assert (Hp : shr0 p) end.
    { apply shr0_bind; [apply shr0_repeated, shr_comma|]. intro. consumes. }
    apply Hp.
Qed.
Lemma shr_rep : shr (rep_p self).
Proof. unfold rep_p. apply shr_bind; [apply shr_just|]. intro. apply shr0_bind; [exact Hself0|]. intro.
  apply shr0_bind; [apply shr_shr0, shr_just|]. intro.
  apply shr0_bind; [apply shr_shr0, shr_num|]. intro nv. apply shr0_bind; [apply shr_shr0, shr_just|]. intro.
  destruct (snd nv); [apply shr_shr0, shr_fail | apply shr0_ret]. Qed.
Lemma shr_arr : shr (arr_p self).
Proof. unfold arr_p. apply shr_bind; [apply shr_delim, shr0_sept, Hself|]. intro. apply shr0_ret. Qed.
Lemma shr_atom : shr (atom self).
Proof.
  unfold atom. repeat apply shr_orelse.
  - apply shr_lit.
  - unfold bool_p. consumes.
  - apply shr_new.
  - apply shr_struct.
  - apply shr_rep.
  - apply shr_arr.
  - unfold id_p. consumes.
  - apply shr_paren.
Qed.
Lemma shr_post_p : shr (post_p self).
Proof.
  unfold post_p. repeat apply shr_orelse.
  - unfold call_p. apply shr_bind; [apply shr_delim, shr0_sept, Hself|]. intro. apply shr0_ret.
  - unfold tup_p. apply shr_bind; [apply shr_just|]. intro. apply shr0_bind; [apply shr_shr0, shr_num|].
    intro nv. destruct (snd nv); [apply shr_shr0, shr_fail | apply shr0_ret].
  - unfold mem_p. consumes.
  - unfold idx_p. apply shr_bind; [apply shr_delim, Hself0|]. intro. apply shr0_ret.
Qed.
Lemma shr_post : shr (post_e self).
Proof. apply shr_foldl; [apply shr_atom | apply shr_post_p]. Qed.
Lemma shr_unary : shr (unary_e self).
Proof. unfold unary_e. apply shr_bind2; [apply shr0_repeated, shr_oneof|]. intro.
  apply shr_bind; [apply shr_post|]. intro. apply shr0_ret. Qed.
Lemma shr_cast_op : shr (just KAs ;; named_ty).
Proof. apply shr_bind; [apply shr_just|]. intro. apply shr_shr0, shr_named_ty. Qed.
Lemma shr_cast : shr (cast_e self).
Proof. apply shr_foldl; [apply shr_unary | apply shr_cast_op]. Qed.
Lemma shr_tier_op lower ops : shr lower -> shr (o <- oneof ops ;; e <- lower ;; ret (o, e) : parser (bop * expr)).
Proof. intro H. apply shr_bind; [apply shr_oneof|]. intro. apply shr0_bind; [apply shr_shr0, H|]. intro. apply shr0_ret. Qed.
Lemma shr_tier lower ops : shr lower -> shr (tier lower ops).
Proof. intro H. apply shr_foldl; [exact H | apply shr_tier_op, H]. Qed.
Lemma shr_log : shr (log_e self).
Proof. unfold log_e, bit_e, cmp_e, add_e, mul_e. repeat apply shr_tier. apply shr_cast. Qed.
End Expr.

Lemma shr_expr_n n : shr (expr_n n).
Proof. induction n as [|n IH]; [intros ts a r E; discriminate|]. cbn [expr_n]. apply shr_log, IH. Qed.
Lemma shr_expr : shr expr_p.
Proof. apply shr_fueled, shr_expr_n. Qed.
Lemma shr_size : shr size_p.
Proof. unfold size_p. apply shr_bind; [apply shr_expr|]. intro e. destruct e as [v [s|]| | | | | | | | | | | | | | |];
  try (apply shr_shr0, shr_fail). apply shr0_ret. Qed.
Lemma shr_ty_n n : shr (ty_n n).
Proof.
  induction n as [|n IH]; [intros ts a r E; discriminate|].
  cbn [ty_n]. unfold ty_f, stars. apply shr_foldl; [|apply shr_just].
  apply shr_orelse; [apply shr_named_ty|]. apply shr_orelse; [|apply shr_tuple_ty, IH].
  unfold arr_ty. apply shr_bind; [apply shr_just|]. intro. apply shr0_bind; [apply shr_shr0, IH|]. intro.
  apply shr0_bind; [apply shr_shr0, shr_just|]. intro. apply shr0_bind; [apply shr_shr0, shr_size|]. intro.
  consumes.
Qed.
Lemma shr_ty : shr ty_p.
Proof. apply shr_fueled, shr_ty_n. Qed.
Lemma shr_pat_n n : shr (pat_n n).
Proof.
  induction n as [|n IH]; [intros ts a r E; discriminate|].
  cbn [pat_n]. unfold pat_f. apply shr_orelse; [|consumes].
  apply shr_bind; [apply shr_delim|].
  - apply shr0_bind; [apply shr0_sep, IH|]. intros [|hd [|hd2 tl]]; try (apply shr_shr0, shr_fail). apply shr0_ret.
  - intro. apply shr0_ret.
Qed.
Lemma shr_pat : shr pat_p.
Proof. apply shr_fueled, shr_pat_n. Qed.
Lemma shr0_ann : shr0 ann_p.
Proof. apply shr0_opt. apply shr_bind; [apply shr_just|]. intro. apply shr_shr0, shr_ty. Qed.
Lemma shr_let : shr let_p.
Proof. unfold let_p. apply shr_bind; [apply shr_just|]. intro. apply shr0_bind; [apply shr_shr0, shr_pat|]. intro.
  apply shr0_bind; [apply shr0_ann|]. intro. apply shr0_bind; [apply shr_shr0, shr_just|]. intro.
  apply shr0_bind; [apply shr_shr0, shr_expr|]. intro. consumes. Qed.
Lemma shr_const : shr const_p.
Proof. unfold const_p. apply shr_bind; [apply shr_just|]. intro. apply shr0_bind; [apply shr_shr0, shr_ident|]. intro.
  apply shr0_bind; [apply shr0_ann|]. intro. apply shr0_bind; [apply shr_shr0, shr_just|]. intro.
  apply shr0_bind; [apply shr_shr0, shr_expr|]. intro. consumes. Qed.
Lemma shr_cond : shr cond_p.
Proof. apply shr_orelse; [apply shr_delim, shr_shr0, shr_expr | apply shr_expr]. Qed.
Lemma shr_eq_expr : shr (just KEq ;; expr_p).
Proof. apply shr_bind; [apply shr_just|]. intro. apply shr_shr0, shr_expr. Qed.
Lemma shr_simple : shr simple_p.
Proof. unfold simple_p. apply shr_bind; [apply shr_expr|]. intro.
  apply shr0_bind; [apply shr0_opt, shr_eq_expr|]. intro. apply shr0_ret. Qed.
Lemma shr_simple_semi : shr simple_semi.
Proof. unfold simple_semi. apply shr_bind; [apply shr_simple|]. intro. consumes. Qed.
Lemma shr_else {A} (self : parser A) : shr self -> shr (just KElse ;; self).
Proof. intro. apply shr_bind; [apply shr_just|]. intro. apply shr_shr0. assumption. Qed.
Lemma shr_stmt_f self : shr self -> shr (stmt_f self).
Proof.
  intro H. pose proof (shr_shr0 _ H) as H0. unfold stmt_f. repeat apply shr_orelse.
  - unfold block_p. apply shr_bind; [apply shr_delim, shr0_repeated, H|]. intro. apply shr0_ret.
  - unfold if_p. apply shr_bind; [apply shr_just|]. intro. apply shr0_bind; [apply shr_shr0, shr_cond|]. intro.
    apply shr0_bind; [exact H0|]. intro. apply shr0_bind; [apply shr0_opt, shr_else, H|]. intro. apply shr0_ret.
  - unfold loop_p. consumes.
  - unfold while_p. apply shr_bind; [apply shr_just|]. intro. apply shr0_bind; [apply shr_shr0, shr_cond|]. intro.
    consumes.
  - unfold for_p. apply shr_bind; [apply shr_just|]. intro. apply shr0_bind; [apply shr_shr0, shr_just|]. intro.
    apply shr0_bind; [apply shr_shr0, shr_orelse; [apply shr_let | apply shr_simple_semi]|]. intro.
    apply shr0_bind; [apply shr_shr0, shr_expr|]. intro. apply shr0_bind; [apply shr_shr0, shr_just|]. intro.
    apply shr0_bind; [apply shr_shr0, shr_simple|]. intro. consumes.
  - unfold break_p. consumes.
  - unfold continue_p. consumes.
  - apply shr_let.
  - apply shr_bind; [apply shr_const|]. intro. apply shr0_ret.
  - unfold return_p. apply shr_bind; [apply shr_just|]. intro. apply shr0_bind; [apply shr0_opt, shr_expr|]. intro.
    consumes.
  - apply shr_simple_semi.
Qed.
Lemma shr_stmt_n n : shr (stmt_n n).
Proof. induction n as [|n IH]; [intros ts a r E; discriminate|]. cbn [stmt_n]. apply shr_stmt_f, IH. Qed.
Lemma shr_stmt : shr stmt_p.
Proof. apply shr_fueled, shr_stmt_n. Qed.
Lemma shr_typed_name : shr typed_name.
Proof. unfold typed_name. apply shr_bind; [apply shr_ident|]. intro. apply shr0_bind; [apply shr_shr0, shr_just|]. intro.
  apply shr0_bind; [apply shr_shr0, shr_ty|]. intro. apply shr0_ret. Qed.
Lemma shr_fn : shr fn_p.
Proof. unfold fn_p. apply shr_bind; [apply shr_just|]. intro. apply shr0_bind; [apply shr_shr0, shr_ident|]. intro.
  apply shr0_bind; [apply shr_shr0, shr_delim, shr0_sept, shr_typed_name|]. intro.
  apply shr0_bind; [apply shr0_opt, shr_bind; [apply shr_just | intro; apply shr_shr0, shr_ty]|]. intro.
  apply shr0_bind; [apply shr_shr0, shr_delim, shr0_repeated, shr_stmt|]. intro. apply shr0_ret. Qed.
Lemma shr_struct_def : shr struct_def.
Proof. unfold struct_def. apply shr_bind; [apply shr_just|]. intro. apply shr0_bind; [apply shr_shr0, shr_ident|]. intro.
  apply shr0_bind; [apply shr_shr0, shr_delim, shr0_sept, shr_typed_name|]. intro. apply shr0_ret. Qed.
Lemma shr0_path : shr0 path_p.
Proof. unfold path_p. apply shr0_bind; [apply shr0_sep, shr_ident|]. intros [|hd tl]; [apply shr_shr0, shr_fail | apply shr0_ret]. Qed.
Lemma shr_use : shr use_p.
Proof.
  unfold use_p. apply shr_bind; [apply shr_just|]. intro. apply shr_shr0, shr_orelse.
  - unfold single_p. apply shr_bind2; [apply shr0_path|]. intro. consumes.
  - unfold list_p. apply shr_bind2; [apply shr0_path|]. intro. apply shr_bind; [apply shr_just|]. intro.
    apply shr0_bind; [apply shr_shr0, shr_delim, shr0_sept, shr_ident|]. intro. consumes.
Qed.
Lemma shr_item : shr item_p.
Proof. unfold item_p. repeat apply shr_orelse; (apply shr_bind; [|intro; apply shr0_ret]).
  - apply shr_fn.
  - apply shr_struct_def.
  - apply shr_const.
  - apply shr_use. Qed.

(** ** No parser runs out of fuel *)
Lemma tot_sep m {A} k (p : parser A) : shr p -> tot m p -> tot m (sep k p).
Proof.
  intros Hs Hp. unfold sep. apply tot_bind; [apply tot_opt, Hp | apply shr0_opt, Hs |].
  intros [hd|]; [|apply tot_ret].
  assert (Hc : shr (just k ;; p)) by (apply shr_bind; [apply shr_just | intro; apply shr_shr0, Hs]).
  apply tot_bind; [|apply shr0_repeated, Hc | intro; apply tot_ret].
  apply tot_repeated; [exact Hc|]. apply tot_bind; [apply tot_just | apply shr_shr0, shr_just | intro; exact Hp].
Qed.
Lemma tot_sept m {A} k (p : parser A) : shr p -> tot m p -> tot m (sept k p).
Proof.
  intros Hs Hp. unfold sept. apply tot_bind; [apply tot_sep; auto | apply shr0_sep, Hs |].
  intros [|hd tl]; [apply tot_ret|].
  apply tot_bind; [apply tot_opt, tot_just | apply shr0_opt, shr_just | intro; apply tot_ret].
Qed.
(** Inside delimiters, one token less. *)
Lemma tot_delim m {A} a b (p : parser A) : shr0 p -> (forall k, m = S k -> tot k p) -> tot m (delim a b p).
Proof.
  intros Hs Hp. unfold delim. destruct m as [|m]; [apply tot_nil; [apply tot_just | apply shr_just]|].
  apply tot_next; [apply tot_just | apply shr_just |]. intro.
  apply tot_bind; [apply Hp; reflexivity | exact Hs |]. intro.
  apply tot_bind; [apply tot_just | apply shr_shr0, shr_just | intro; apply tot_ret].
Qed.
Lemma tot_after m {A} k (p : parser A) : (forall j, m = S j -> tot j p) -> tot m (just k ;; p).
Proof. intro Hp. destruct m as [|m]; [apply tot_nil; [apply tot_just | apply shr_just]|].
  apply tot_next; [apply tot_just | apply shr_just | intro; apply Hp; reflexivity]. Qed.
Lemma tot_foldl m {A B} (p : parser A) (q : parser B) f :
  tot m p -> shr p -> tot m q -> shr q -> tot m (foldl p q f).
Proof. intros. unfold foldl. apply tot_bind; [assumption | apply shr_shr0; assumption |]. intro.
  apply tot_bind; [apply tot_repeated; assumption | apply shr0_repeated; assumption | intro; apply tot_ret]. Qed.
Lemma tot_fueled m {A} (p : nat -> parser A) : (forall n, tot n (p (S n))) -> tot m (fueled p).
Proof. intros H ts _. unfold fueled. apply H. lia. Qed.

Lemma tot_named_ty m : tot m named_ty.
Proof. unfold named_ty. apply tot_bind; [apply tot_ident | apply shr_shr0, shr_ident | intro; apply tot_ret]. Qed.
Lemma tot_tuple_ty m self : shr self -> (forall j, m = S j -> tot j self) -> tot m (tuple_ty self).
Proof.
  intros Hs Ht. unfold tuple_ty. apply tot_after. intros j ->.
  apply tot_bind; [apply tot_sep; auto | apply shr0_sep, Hs |]. intro.
  apply tot_bind; [apply tot_opt, tot_just | apply shr0_opt, shr_just |]. intro.
  apply tot_bind; [apply tot_just | apply shr_shr0, shr_just | intro; apply tot_ret].
Qed.
Lemma tot_alloc n : tot n (alloc (S n)).
Proof.
  induction n as [|n IH]; cbn [alloc]; unfold alloc_f, stars;
    (apply tot_foldl; [apply tot_orelse; [apply tot_named_ty|] |
      apply shr_orelse; [apply shr_named_ty | apply shr_tuple_ty] | apply tot_just | apply shr_just]).
  - apply tot_tuple_ty; [intros ts a r E; discriminate | lia].
  - intros ts a r E; discriminate.
  - apply tot_tuple_ty; [apply (shr_alloc (S n))|]. intros j [= <-]. exact IH.
  - apply (shr_alloc (S n)).
Qed.

Section ExprTot.
Variables (m : nat) (self : parser expr).
Hypothesis Hself : shr self.
Hypothesis Htot : forall j, m = S j -> tot j self.
Let Hself0 : shr0 self := shr_shr0 _ Hself.

Lemma tot_struct : tot m (struct_p self).
Proof.
  unfold struct_p. apply tot_bind; [apply tot_ident | apply shr_shr0, shr_ident |]. intro.
  apply tot_bind; [|apply shr_shr0, shr_delim, shr0_sept, shr_field, Hself | intro; apply tot_ret].
  apply tot_delim; [apply shr0_sept, shr_field, Hself|]. intros k ->.
  apply tot_sept; [apply shr_field, Hself|]. unfold field_p.
  apply tot_bind; [apply tot_ident | apply shr_shr0, shr_ident |]. intro.
  apply tot_bind; [apply tot_just | apply shr_shr0, shr_just |]. intro.
  apply tot_bind; [apply Htot; reflexivity | exact Hself0 | intro; apply tot_ret].
Qed.
Lemma tot_paren : tot m (paren_p self).
Proof.
  unfold paren_p. apply tot_after. intros j E. specialize (Htot j E). clear E.
  apply tot_orelse.
  { apply tot_bind; [apply tot_just | apply shr_shr0, shr_just | intro; apply tot_ret]. }
  apply tot_bind; [exact Htot | exact Hself0 |]. intros e ts Hl.
  destruct ts as [|[| |k] ts]; try discriminate. destruct k; try discriminate.
  match goal with |- ?p _ <> _ => assert (Hp : tot j p) end; [|apply Hp; exact Hl].
  assert (Hc : shr (just KComma ;; self)) by (apply shr_comma, Hself).
  apply tot_bind; [|apply shr0_repeated, Hc |].
  { apply tot_repeated; [exact Hc|]. apply tot_bind; [apply tot_just | apply shr_shr0, shr_just | intro; exact Htot]. }
  intro. apply tot_bind; [apply tot_opt, tot_just | apply shr0_opt, shr_just |]. intro.
  apply tot_bind; [apply tot_just | apply shr_shr0, shr_just | intro; apply tot_ret].
Qed.
Lemma tot_rep : tot m (rep_p self).
Proof.
  unfold rep_p. apply tot_after. intros j E. specialize (Htot j E). clear E.
  apply tot_bind; [exact Htot | exact Hself0 |]. intro.
  apply tot_bind; [apply tot_just | apply shr_shr0, shr_just |]. intro.
  apply tot_bind; [apply tot_num | apply shr_shr0, shr_num |]. intro nv.
  apply tot_bind; [apply tot_just | apply shr_shr0, shr_just |]. intro.
  destruct (snd nv); [apply tot_fail | apply tot_ret].
Qed.
Lemma tot_args a b : tot m (delim a b (sept KComma self)).
Proof. apply tot_delim; [apply shr0_sept, Hself|]. intros k E. apply tot_sept; auto. Qed.
Lemma tot_atom : tot m (atom self).
Proof.
  unfold atom. repeat apply tot_orelse.
  - unfold lit_p. apply tot_bind; [apply tot_num | apply shr_shr0, shr_num |]. intro nv.
    destruct (suffix_ok (snd nv)); [apply tot_ret | apply tot_fail].
  - unfold bool_p. apply tot_bind; [apply tot_oneof | apply shr_shr0, shr_oneof | intro; apply tot_ret].
  - unfold new_p. apply tot_after. intros j E.
    apply tot_bind; [apply tot_fueled, tot_alloc | apply shr_shr0, shr_fueled, shr_alloc |]. intro.
    apply tot_bind; [|apply shr_shr0, shr_delim, Hself0 | intro; apply tot_ret].
    apply tot_delim; [exact Hself0|]. intros k ->. apply (tot_le k (S k)); [apply Htot, E | lia].
  - apply tot_struct.
  - apply tot_rep.
  - unfold arr_p. apply tot_bind; [apply tot_args | apply shr_shr0, shr_delim, shr0_sept, Hself | intro; apply tot_ret].
  - unfold id_p. apply tot_bind; [apply tot_ident | apply shr_shr0, shr_ident | intro; apply tot_ret].
  - apply tot_paren.
Qed.
Lemma tot_post_p : tot m (post_p self).
Proof.
  unfold post_p. repeat apply tot_orelse.
  - unfold call_p. apply tot_bind; [apply tot_args | apply shr_shr0, shr_delim, shr0_sept, Hself | intro; apply tot_ret].
  - unfold tup_p. apply tot_after. intros j _.
    apply tot_bind; [apply tot_num | apply shr_shr0, shr_num |]. intro nv.
    destruct (snd nv); [apply tot_fail | apply tot_ret].
  - unfold mem_p. apply tot_after. intros j _.
    apply tot_bind; [apply tot_ident | apply shr_shr0, shr_ident | intro; apply tot_ret].
  - unfold idx_p. apply tot_bind; [|apply shr_shr0, shr_delim, Hself0 | intro; apply tot_ret].
    apply tot_delim; [exact Hself0 | exact Htot].
Qed.
Lemma tot_tier lower ops : tot m lower -> shr lower -> tot m (tier lower ops).
Proof.
  intros Ht Hs. apply tot_foldl; [exact Ht | exact Hs | | apply shr_tier_op, Hs].
  apply tot_bind; [apply tot_oneof | apply shr_shr0, shr_oneof |]. intro.
  apply tot_bind; [exact Ht | apply shr_shr0, Hs | intro; apply tot_ret].
Qed.
Lemma tot_log : tot m (log_e self).
Proof.
  unfold log_e, bit_e, cmp_e, add_e, mul_e.
  repeat (apply tot_tier; [| repeat apply shr_tier; apply shr_cast, Hself]).
  unfold cast_e. apply tot_foldl; [|apply shr_unary, Hself | | apply shr_cast_op].
  - unfold unary_e. apply tot_bind; [apply tot_repeated; [apply shr_oneof | apply tot_oneof] | apply shr0_repeated, shr_oneof |].
    intro. apply tot_bind; [|apply shr_shr0, shr_post, Hself | intro; apply tot_ret].
    apply tot_foldl; [apply tot_atom | apply shr_atom, Hself | apply tot_post_p | apply shr_post_p, Hself].
  - apply tot_bind; [apply tot_just | apply shr_shr0, shr_just | intro; apply tot_named_ty].
Qed.
End ExprTot.

Lemma tot_expr_n n : tot n (expr_n (S n)).
Proof.
  induction n as [|n IH]; cbn [expr_n].
  - apply tot_log; [intros ts a r E; discriminate | lia].
  - apply tot_log; [apply (shr_expr_n (S n))|]. intros j [= <-]. exact IH.
Qed.
Lemma tot_expr m : tot m expr_p.
Proof. apply tot_fueled, tot_expr_n. Qed.
Lemma tot_size m : tot m size_p.
Proof. unfold size_p. apply tot_bind; [apply tot_expr | apply shr_shr0, shr_expr |]. intro e.
  destruct e as [v [s|]| | | | | | | | | | | | | | |]; try apply tot_fail. apply tot_ret. Qed.
Lemma tot_ty_f m self : shr self -> (forall j, m = S j -> tot j self) -> tot m (ty_f self).
Proof.
  intros Hs Ht. unfold ty_f, stars. apply tot_foldl; [| | apply tot_just | apply shr_just].
  - apply tot_orelse; [apply tot_named_ty|]. apply tot_orelse; [|apply tot_tuple_ty; auto].
    unfold arr_ty. apply tot_after. intros j E.
    apply tot_bind; [apply Ht, E | apply shr_shr0, Hs |]. intro.
    apply tot_bind; [apply tot_just | apply shr_shr0, shr_just |]. intro.
    apply tot_bind; [apply tot_size | apply shr_shr0, shr_size |]. intro.
    apply tot_bind; [apply tot_just | apply shr_shr0, shr_just | intro; apply tot_ret].
  - apply shr_orelse; [apply shr_named_ty|]. apply shr_orelse; [|apply shr_tuple_ty, Hs].
    unfold arr_ty. apply shr_bind; [apply shr_just|]. intro. apply shr0_bind; [apply shr_shr0, Hs|]. intro.
    apply shr0_bind; [apply shr_shr0, shr_just|]. intro. apply shr0_bind; [apply shr_shr0, shr_size|]. intro.
    consumes.
Qed.
Lemma tot_ty_n n : tot n (ty_n (S n)).
Proof.
  induction n as [|n IH]; cbn [ty_n].
  - apply tot_ty_f; [intros ts a r E; discriminate | lia].
  - apply tot_ty_f; [apply (shr_ty_n (S n))|]. intros j [= <-]. exact IH.
Qed.
Lemma tot_ty m : tot m ty_p.
Proof. apply tot_fueled, tot_ty_n. Qed.
Lemma tot_pat_f m self : shr self -> (forall j, m = S j -> tot j self) -> tot m (pat_f self).
Proof.
  intros Hs Ht. unfold pat_f. apply tot_orelse.
  - assert (H0 : shr0 (l <- sep KComma self ;; match l with _ :: _ :: _ => ret l | _ => fail end)).
    { apply shr0_bind; [apply shr0_sep, Hs|]. intros [|hd [|hd2 tl]]; try (apply shr_shr0, shr_fail). apply shr0_ret. }
    apply tot_bind; [|apply shr_shr0, shr_delim, H0 | intro; apply tot_ret].
    apply tot_delim; [exact H0|]. intros k E. apply tot_bind; [apply tot_sep; auto | apply shr0_sep, Hs |].
    intros [|hd [|hd2 tl]]; try apply tot_fail. apply tot_ret.
  - apply tot_bind; [apply tot_ident | apply shr_shr0, shr_ident | intro; apply tot_ret].
Qed.
Lemma tot_pat m : tot m pat_p.
Proof.
  apply tot_fueled. intro n. induction n as [|n IH]; cbn [pat_n].
  - apply tot_pat_f; [intros ts a r E; discriminate | lia].
  - apply tot_pat_f; [apply (shr_pat_n (S n))|]. intros j [= <-]. exact IH.
Qed.
Ltac total := repeat first
  [ apply tot_ret | apply tot_just | apply tot_ident | apply tot_num | apply tot_expr | apply tot_ty
  | apply tot_pat | apply tot_opt | apply tot_orelse | apply tot_fail
  | apply shr0_ann | apply shr_shr0, shr_just | apply shr_shr0, shr_ident | apply shr_shr0, shr_expr
  | apply shr_shr0, shr_ty | apply shr_shr0, shr_pat | apply shr0_opt | apply shr_eq_expr
  | apply tot_bind; [| | let a := fresh in intro a; cbv beta] ].
Lemma tot_ann m : tot m ann_p.
Proof. unfold ann_p. total. Qed.
Lemma tot_let m : tot m let_p.
Proof. unfold let_p. total. Qed.
Lemma tot_const m : tot m const_p.
Proof. unfold const_p. total. Qed.
Lemma tot_cond m : tot m cond_p.
Proof. unfold cond_p. apply tot_orelse; [|apply tot_expr]. apply tot_delim; [apply shr_shr0, shr_expr|].
  intros. apply tot_expr. Qed.
Lemma tot_simple m : tot m simple_p.
Proof. unfold simple_p. total. Qed.
Lemma tot_simple_semi m : tot m simple_semi.
Proof. unfold simple_semi. apply tot_bind; [apply tot_simple | apply shr_shr0, shr_simple |]. intro. total. Qed.
Lemma tot_stmt_f m self : shr self -> (forall j, m = S j -> tot j self) -> tot m (stmt_f self).
Proof.
  intros Hs Ht. pose proof (shr_shr0 _ Hs) as H0. unfold stmt_f. repeat apply tot_orelse.
  - unfold block_p. apply tot_bind; [|apply shr_shr0, shr_delim, shr0_repeated, Hs | intro; apply tot_ret].
    apply tot_delim; [apply shr0_repeated, Hs|]. intros k E. apply tot_repeated; auto.
  - unfold if_p. apply tot_after. intros j E. specialize (Ht j E). clear E.
    apply tot_bind; [apply tot_cond | apply shr_shr0, shr_cond |]. intro.
    apply tot_bind; [exact Ht | exact H0 |]. intro.
    apply tot_bind; [|apply shr0_opt, shr_else, Hs | intro; apply tot_ret].
    apply tot_opt, tot_bind; [apply tot_just | apply shr_shr0, shr_just | intro; exact Ht].
  - unfold loop_p. apply tot_after. intros j E. apply tot_bind; [apply Ht, E | exact H0 | intro; apply tot_ret].
  - unfold while_p. apply tot_after. intros j E.
    apply tot_bind; [apply tot_cond | apply shr_shr0, shr_cond |]. intro.
    apply tot_bind; [apply Ht, E | exact H0 | intro; apply tot_ret].
  - unfold for_p. apply tot_after. intros j E.
    apply tot_bind; [apply tot_just | apply shr_shr0, shr_just |]. intro.
    apply tot_bind; [apply tot_orelse; [apply tot_let | apply tot_simple_semi]
      | apply shr_shr0, shr_orelse; [apply shr_let | apply shr_simple_semi] |]. intro.
    apply tot_bind; [apply tot_expr | apply shr_shr0, shr_expr |]. intro.
    apply tot_bind; [apply tot_just | apply shr_shr0, shr_just |]. intro.
    apply tot_bind; [apply tot_simple | apply shr_shr0, shr_simple |]. intro.
    apply tot_bind; [apply tot_just | apply shr_shr0, shr_just |]. intro.
    apply tot_bind; [apply Ht, E | exact H0 | intro; apply tot_ret].
  - unfold break_p. total.
  - unfold continue_p. total.
  - apply tot_let.
  - apply tot_bind; [apply tot_const | apply shr_shr0, shr_const | intro; apply tot_ret].
  - unfold return_p. total. apply shr_expr.
  - apply tot_simple_semi.
Qed.
Lemma tot_stmt m : tot m stmt_p.
Proof.
  apply tot_fueled. intro n. induction n as [|n IH]; cbn [stmt_n].
  - apply tot_stmt_f; [intros ts a r E; discriminate | lia].
  - apply tot_stmt_f; [apply (shr_stmt_n (S n))|]. intros j [= <-]. exact IH.
Qed.
Lemma tot_typed_name m : tot m typed_name.
Proof. unfold typed_name. total. Qed.
Lemma tot_item m : tot m item_p.
Proof.
  unfold item_p. repeat apply tot_orelse; apply tot_bind; try (intro; apply tot_ret);
    try (apply shr_shr0; first [apply shr_fn | apply shr_struct_def | apply shr_const | apply shr_use]).
  - unfold fn_p. apply tot_bind; [apply tot_just | apply shr_shr0, shr_just |]. intro.
    apply tot_bind; [apply tot_ident | apply shr_shr0, shr_ident |]. intro.
    apply tot_bind; [|apply shr_shr0, shr_delim, shr0_sept, shr_typed_name |].
    { apply tot_delim; [apply shr0_sept, shr_typed_name|]. intros. apply tot_sept; [apply shr_typed_name | apply tot_typed_name]. }
    intro. apply tot_bind; [|apply shr0_opt, shr_bind; [apply shr_just | intro; apply shr_shr0, shr_ty] |].
    { total. }
    intro. apply tot_bind; [|apply shr_shr0, shr_delim, shr0_repeated, shr_stmt | intro; apply tot_ret].
    apply tot_delim; [apply shr0_repeated, shr_stmt|]. intros. apply tot_repeated; [apply shr_stmt | apply tot_stmt].
  - unfold struct_def. apply tot_bind; [apply tot_just | apply shr_shr0, shr_just |]. intro.
    apply tot_bind; [apply tot_ident | apply shr_shr0, shr_ident |]. intro.
    apply tot_bind; [|apply shr_shr0, shr_delim, shr0_sept, shr_typed_name | intro; apply tot_ret].
    apply tot_delim; [apply shr0_sept, shr_typed_name|]. intros. apply tot_sept; [apply shr_typed_name | apply tot_typed_name].
  - apply tot_const.
  - assert (Hp : forall k, tot k path_p).
    { intro k. unfold path_p. apply tot_bind; [apply tot_sep; [apply shr_ident | apply tot_ident] | apply shr0_sep, shr_ident |].
      intros [|hd tl]; [apply tot_fail | apply tot_ret]. }
    unfold use_p. apply tot_bind; [apply tot_just | apply shr_shr0, shr_just |]. intro. apply tot_orelse.
    + unfold single_p. apply tot_bind; [apply Hp | apply shr0_path |]. intro. total.
    + unfold list_p. apply tot_bind; [apply Hp | apply shr0_path |]. intro.
      apply tot_bind; [apply tot_just | apply shr_shr0, shr_just |]. intro.
      apply tot_bind; [|apply shr_shr0, shr_delim, shr0_sept, shr_ident |].
      { apply tot_delim; [apply shr0_sept, shr_ident|]. intros. apply tot_sept; [apply shr_ident | apply tot_ident]. }
      intro. total.
Qed.
(** The parser always answers. *)
Lemma module_p_total ts : module_p ts <> PFuel.
Proof.
  unfold module_p. pose proof (tot_repeated (length ts) item_p shr_item (tot_item _) ts (le_n _)) as H.
  destruct (repeated item_p ts) as [m [|t r]| |]; congruence.
Qed.
