(** Proofs for C61: reading a file with the index is reading it with lexical scopes, and the
    result means what the file says. *)
From Coq Require Import ZArith NArith Bool String List Lia Arith.
From Verif Require Import M31 Isa Mir MirSem MirCopyFacts Src SrcSem SrcCheck SrcFacts Syn ParseFacts FmtFacts Sema SemaSpec Typing Elab Named.
Import ListNotations.
Open Scope list_scope.
Open Scope nat_scope.

Local Notation "'do' p <- e ; k" := (match e with Some p => k | None => None end)
  (at level 200, p pattern, e at level 100, k at level 200).

(** ** Reading with lexical scopes *)
Notation lstate := (env * list slot)%type.
Section Lex.
Variables (adm : Src.expr -> bool) (base : nat) (fn : nat -> option nat) (ks : list (nat * Src.expr)) (sg : sigs) (ret : option Mir.ty).
Fixpoint lex_e (r : env) (ts : list slot) (hint exp : option Mir.ty) (e : Syn.expr) {struct e} : option Src.expr :=
  match e with
  | Syn.ELit v None => do t <- literal_type hint exp; Some (Src.ELit (Z.of_N v) t)
  | Syn.ELit v (Some s) => do t <- suffix_type s; Some (Src.ELit (Z.of_N v) (mty t))
  | Syn.EBool b => Some (Src.EBool b)
  | Syn.EPar a => lex_e r ts hint None a
  | Syn.EId x =>
    do d <- refers r x;
    if is_assert x then None
    else if Nat.ltb d base then const_value ks d
    else match nth_error ts (d - base) with Some (_, None) => Some (Src.EVar (d - base)) | Some (_, Some e') => Some e' | None => None end
  | Syn.EUn op a => do a' <- lex_e r ts hint None a; Some (Src.EUn (unop_of op) a')
  | Syn.EBin op l x =>
    do l' <- lex_e r ts hint None l;
    do r' <- lex_e r ts hint (type_of (var_types ts) sg l') x;
    Some (Src.EBin (sop_of op) l' r')
  | Syn.ECall (Syn.EId f) args =>
    do d <- refers r f;
    if is_assert f || negb (Nat.ltb d base) then None
    else
      do k <- fn d;
      do (ps, _) <- nth_error sg k;
      do es <- (fix go l qs := match l with
         | [] => Some ENil
         | a :: l' => do a' <- lex_e r ts hint (hd_error qs) a; do es <- go l' (tl qs); Some (ECons a' es)
         end) args ps;
      Some (Src.ECall k es)
  | Syn.ECast a t => do t' <- scalar_ty t; do a' <- lex_e r ts hint None a; Some (Src.ECast a' t')
  | _ => None
  end.
Definition lblock_of (f : Syn.stmt -> lstate -> option (Src.stmt * lstate)) : list Syn.stmt -> lstate -> option (Src.stmt * lstate) :=
  fix go l st := match l with
    | [] => Some (Src.SSkip, st)
    | s :: l' => do (c, st1) <- f s st; do (cs, st2) <- go l' st1; Some (Src.SSeq c cs, st2)
    end.
Definition within (r : env) (x : option (Src.stmt * lstate)) : option (Src.stmt * lstate) :=
  do (c, (_, ts)) <- x; Some (c, (r, ts)).
Fixpoint lex_s (s : Syn.stmt) (st : lstate) {struct s} : option (Src.stmt * lstate) :=
  let '(r, ts) := st in
  match s with
  | Syn.SLet (PId x) ann e =>
    do t <- match ann with None => Some None | Some t => option_map Some (scalar_ty t) end;
    do e' <- lex_e r ts t t e;
    do vt <- match t with Some t => Some t | None => type_of (var_types ts) sg e' end;
    Some (Src.SLet (length ts) e', ((x, base + length ts) :: r, ts ++ [(vt, None)]))
  | Syn.SConst c =>
    do t <- match c_ty c with None => Some None | Some t => option_map Some (scalar_ty t) end;
    do e' <- lex_e r ts t t (c_val c);
    do vt <- type_of (var_types ts) sg e';
    if match t with Some t => ty_eqb t vt | None => true end && adm e'
    then Some (Src.SSkip, ((c_name c, base + length ts) :: r, ts ++ [(vt, Some e')])) else None
  | Syn.SAssign (Syn.EId x) e =>
    do d <- refers r x;
    if Nat.ltb d base then None
    else match nth_error ts (d - base) with
         | Some (t, None) => do e' <- lex_e r ts None (Some t) e; Some (Src.SAssign (d - base) e', st)
         | _ => None
         end
  | Syn.SReturn None => Some (Src.SReturn None, st)
  | Syn.SReturn (Some e) => do e' <- lex_e r ts None ret e; Some (Src.SReturn (Some e'), st)
  | Syn.SIf c a b =>
    do c' <- lex_e r ts None None c;
    do (a', (_, ts1)) <- lex_s a st;
    match b with
    | Some b => do (b', (_, ts2)) <- lex_s b (r, ts1); Some (Src.SIf c' a' b', (r, ts2))
    | None => Some (Src.SIf1 c' a', (r, ts1))
    end
  | Syn.SExpr e =>
    match assert_arg e with
    | Some a => do a' <- lex_e r ts None None a; Some (Src.SAssert a', st)
    | None => do e' <- lex_e r ts None None e; Some (expr_stmt sg e e', st)
    end
  | Syn.SBlock l => within r (lblock_of (fun s st => lex_s s st) l st)
  | Syn.SLoop b => do (b', (_, ts1)) <- lex_s b st; Some (Src.SLoop b', (r, ts1))
  | Syn.SWhile c b =>
    do c' <- lex_e r ts None None c; do (b', (_, ts1)) <- lex_s b st; Some (Src.SWhile c' b', (r, ts1))
  | Syn.SFor i c s b =>
    if negb (is_block b) then None
    else
      do (i', (r1, ts1)) <- lex_s i st;
      do c' <- lex_e r1 ts1 None None c;
      do (b', (_, ts2)) <- lex_s b (r1, ts1);
      do (s', (_, ts3)) <- lex_s s (r1, ts2);
      Some (Src.SFor i' c' s' b', (r, ts3))
  | Syn.SBreak => Some (Src.SBreak, st)
  | Syn.SContinue => Some (Src.SContinue, st)
  | _ => None
  end.

Definition plus_u {A} (x : option A) (u : uses) : option (A * uses) := option_map (fun a => (a, u)) x.
Lemma look_app r a b : look r (a ++ b) = look r a ++ look r b.
Proof. apply map_app. Qed.
(** The index's table, read in order, is what the scopes say. *)
Lemma elab_lex_e : forall e r ts h x u, elab_e base fn ks sg ts h x e (look r (names_e e) ++ u) = plus_u (lex_e r ts h x e) u.
Proof.
  induction e as [v s|b|x|op a IH|op l r IHl IHr|f es IHf IHes|a m IH|l r IHl IHr|n fs IHfs|es IH|a i IH|es IH|a n IH|a t IH|t n IH|a IH]
    using expr_ind2; intros r0 ts h ex u; cbn [elab_e lex_e names_e]; try reflexivity.
  - destruct s as [s|]; [now destruct (suffix_type s)|now destruct (literal_type h ex)].
  - cbn [look map app next_use]. destruct (refers r0 x) as [d|]; [|reflexivity]. destruct (is_assert x); [reflexivity|].
    destruct (d <? base); [now destruct (const_value ks d)|]. now destruct (nth_error ts (d - base)) as [(t & [k|])|].
  - rewrite IH. now destruct (lex_e r0 ts h None a).
  - rewrite look_app, <- app_assoc, IHl. destruct (lex_e r0 ts h None l) as [l'|]; [|reflexivity]. cbn [plus_u option_map].
    rewrite IHr. now destruct (lex_e r0 ts h _ r).
  - destruct f as [| |f| | | | | | | | | | | | |]; try reflexivity. cbn [names_e look map app next_use].
    destruct (refers r0 f) as [d|]; [|reflexivity]. destruct (is_assert f || negb (d <? base)); [reflexivity|].
    destruct (fn d) as [k|]; [|reflexivity]. destruct (nth_error sg k) as [(ps & t)|]; [|reflexivity].
    match goal with |- match ?x with _ => _ end = plus_u match ?y with _ => _ end _ => assert (K : x = plus_u y u) end.
    { revert ps. induction IHes as [|a es Ha IHes IH]; intro ps; [reflexivity|]. cbn [flat_map]. rewrite map_app, <- app_assoc.
      specialize (Ha r0 ts h (hd_error ps)). unfold look in Ha. rewrite Ha. destruct (lex_e r0 ts h (hd_error ps) a) as [a'|]; [|reflexivity]. cbn [plus_u option_map].
      rewrite IH. match goal with |- match plus_u ?x _ with _ => _ end = _ => now destruct x end. }
    unfold look in K. rewrite K. match goal with |- match plus_u ?x _ with _ => _ end = _ => now destruct x end.
  - destruct (scalar_ty t); [|reflexivity]. rewrite IH. now destruct (lex_e r0 ts h None a).
  - apply IH.
Qed.
Definition same_s (f : Syn.stmt -> env -> nat -> walk) (el : Syn.stmt -> reader -> option (Src.stmt * reader))
    (le : Syn.stmt -> lstate -> option (Src.stmt * lstate)) (s : Syn.stmt) : Prop :=
  forall r ts u, let '(fd, r', n') := f s r (base + length ts) in
  match le s (r, ts) with
  | Some (c, (r1, ts1)) => r1 = r' /\ n' = base + length ts1 /\ el s (in_exprs fd ++ u, ts) = Some (c, (u, ts1))
  | None => el s (in_exprs fd ++ u, ts) = None
  end.
Lemma elab_lex_block l : Forall (same_s (fun s r n => walk_s s r n) (fun s st => elab_s adm base fn ks sg ret s st) (fun s st => lex_s s st)) l ->
  forall r ts u, let '(fd, r', n') := all (fun s r n => walk_s s r n) l r (base + length ts) in
  match lblock_of (fun s st => lex_s s st) l (r, ts) with
  | Some (c, (r1, ts1)) => r1 = r' /\ n' = base + length ts1 /\
      block_of (fun s st => elab_s adm base fn ks sg ret s st) l (in_exprs fd ++ u, ts) = Some (c, (u, ts1))
  | None => block_of (fun s st => elab_s adm base fn ks sg ret s st) l (in_exprs fd ++ u, ts) = None
  end.
Proof.
  intro F. induction F as [|s l H F IH]; intros r ts u; cbn [all plain nothing in_exprs]; [cbn; auto|].
  unfold next. specialize (H r ts). destruct (walk_s s r (base + length ts)) as ((fd & r1) & n1).
  destruct (all _ l r1 n1) as ((fd2 & r2) & n2) eqn:A. cbn [both in_exprs]. rewrite <- app_assoc. specialize (H (in_exprs fd2 ++ u)).
  cbn [lblock_of block_of]. destruct (lex_s s (r, ts)) as [(c & (r1' & ts1))|]; [|rewrite H; reflexivity].
  destruct H as (-> & -> & ->). specialize (IH r1 ts1 u). rewrite A in IH.
  fold (lblock_of (fun s st => lex_s s st)). fold (block_of (fun s st => elab_s adm base fn ks sg ret s st)).
  destruct (lblock_of _ l (r1, ts1)) as [(cs & (r2' & ts2))|].
  - destruct IH as (-> & -> & ->). auto.
  - rewrite IH. reflexivity.
Qed.
Lemma elab_lex_s s : same_s (fun s r n => walk_s s r n) (fun s st => elab_s adm base fn ks sg ret s st) (fun s st => lex_s s st) s.
Proof.
  induction s as [p t e|c|l e|o|c a b IHa IHb|e|l IH|b IH|c b IH|i c st b IHi IHs IHb| |] using stmt_ind3;
    intros r ts u; cbn [walk_s elab_s lex_s].
  - destruct p as [x|ps].
    + unfold next, plain. cbn [pnames all declares]. unfold next, plain, declares. cbn [both in_exprs found_e found_t nothing app]. rewrite !app_nil_r.
      destruct (match t with None => Some None | Some t0 => _ end) as [t'|]; [|reflexivity].
      rewrite elab_lex_e. destruct (lex_e r ts t' t' e) as [e'|]; [|reflexivity]. cbn [plus_u option_map].
      destruct (match t' with Some t0 => Some t0 | None => _ end) as [vt|]; [|reflexivity].
      split; [reflexivity|]. split; [rewrite app_length; cbn; lia|reflexivity].
    + destruct (next _ _) as ((fd & r') & n'). reflexivity.
  - unfold next, plain, declares. cbn [both in_exprs found_e nothing app]. rewrite app_nil_r.
    destruct (match c_ty c with None => Some None | Some t0 => _ end) as [t'|]; [|reflexivity].
    rewrite elab_lex_e. destruct (lex_e r ts t' t' (c_val c)) as [e'|]; [|reflexivity]. cbn [plus_u option_map].
    destruct (type_of (var_types ts) sg e') as [vt|]; [|reflexivity]. destruct (_ && adm e'); [|reflexivity].
    split; [reflexivity|]. split; [rewrite app_length; cbn; lia|reflexivity].
  - unfold plain. cbn [both in_exprs found_e]. destruct l; try reflexivity. cbn [names_e look map app next_use].
    destruct (refers r x) as [d|]; [|reflexivity]. destruct (d <? base); [reflexivity|]. destruct (nth_error ts (d - base)) as [(t & [k|])|]; try reflexivity.
    fold (look r (names_e e)). rewrite elab_lex_e. destruct (lex_e r ts None (Some t) e) as [e'|]; [|reflexivity]. cbn. auto.
  - destruct o as [e|]; unfold plain; cbn [in_exprs found_e nothing app].
    + rewrite elab_lex_e. destruct (lex_e r ts None ret e); [cbn; auto|reflexivity].
    + auto.
  - unfold next at 1, plain at 1. cbn [both in_exprs found_e].
    pose proof (IHa r ts) as A. cbv beta in A. unfold scoped at 1. unfold next. destruct (walk_s a r (base + length ts)) as ((fa & ra) & na).
    destruct b as [b|].
    + unfold scoped. destruct (walk_s b r na) as ((fb & rb) & nb) eqn:B. cbn [both in_exprs found_e]. rewrite <- !app_assoc. cbn [found_e in_exprs]. rewrite elab_lex_e.
      destruct (lex_e r ts None None c) as [c'|]; [|reflexivity]. cbn [plus_u option_map]. specialize (A (in_exprs fb ++ u)).
      destruct (lex_s a (r, ts)) as [(a' & (r1 & ts1))|]; [|now rewrite A]. destruct A as (_ & -> & ->).
      pose proof (IHb b eq_refl r ts1 u) as Hb. cbv beta in Hb. rewrite B in Hb.
      destruct (lex_s b (r, ts1)) as [(b' & (r2 & ts2))|]; [|now rewrite Hb]. destruct Hb as (_ & -> & ->). auto.
    + unfold plain. cbn [both in_exprs nothing found_e]. rewrite app_nil_r, <- app_assoc, elab_lex_e.
      destruct (lex_e r ts None None c) as [c'|]; [|reflexivity]. cbn [plus_u option_map]. specialize (A u).
      destruct (lex_s a (r, ts)) as [(a' & (r1 & ts1))|]; [|now rewrite A]. destruct A as (_ & -> & ->). auto.
  - unfold plain. cbn [in_exprs found_e]. destruct (assert_arg e) as [a|] eqn:As.
    + destruct e; try discriminate As. destruct e; try discriminate As. destruct args as [|a0 [|? ?]]; try discriminate As.
      cbn in As. destruct (is_assert x); [|discriminate As]. injection As as ->. cbn [names_e flat_map look map app]. rewrite app_nil_r.
      fold (look r (names_e a)). rewrite elab_lex_e. destruct (lex_e r ts None None a); [cbn; auto|reflexivity].
    + rewrite elab_lex_e. destruct (lex_e r ts None None e); [cbn; auto|reflexivity].
  - pose proof (elab_lex_block l IH r ts u) as H. unfold scoped. destruct (all _ l r (base + length ts)) as ((fd & r') & n').
    unfold within. destruct (lblock_of _ l (r, ts)) as [(c & (r1 & ts1))|]; [|exact H]. destruct H as (_ & -> & ->). auto.
  - pose proof (IH r ts u) as H. cbv beta in H. unfold scoped. destruct (walk_s b r (base + length ts)) as ((fd & r') & n').
    destruct (lex_s b (r, ts)) as [(c & (r1 & ts1))|]; [|now rewrite H]. destruct H as (_ & -> & ->). auto.
  - pose proof (IH r ts u) as H. cbv beta in H. unfold next, plain, scoped. destruct (walk_s b r (base + length ts)) as ((fd & r') & n').
    cbn [both in_exprs found_e]. rewrite <- app_assoc, elab_lex_e. destruct (lex_e r ts None None c) as [c'|]; [|reflexivity]. cbn [plus_u option_map].
    destruct (lex_s b (r, ts)) as [(b' & (r1 & ts1))|]; [|now rewrite H]. destruct H as (_ & -> & ->). auto.
  - destruct (is_block b) eqn:Bl; cbn [negb]; [|unfold scoped; destruct (next _ _) as ((fd & r') & n'); reflexivity].
    pose proof (IHi r ts) as Hi. cbv beta in Hi. unfold scoped at 1. unfold next. destruct (walk_s i r (base + length ts)) as ((fi & ri) & ni).
    unfold plain. destruct (walk_s b ri ni) as ((fb & rb) & nb) eqn:Wb. assert (rb = ri) as ->.
    { destruct b; try discriminate Bl. cbn [walk_s] in Wb. unfold scoped in Wb. destruct (all _ l ri ni) as ((? & ?) & ?). now injection Wb. }
    destruct (walk_s st ri nb) as ((fs & rs) & ns) eqn:Ws. cbn [both in_exprs found_e]. rewrite <- !app_assoc.
    specialize (Hi (look ri (names_e c) ++ in_exprs fb ++ in_exprs fs ++ u)).
    destruct (lex_s i (r, ts)) as [(i' & (r1 & ts1))|]; [|now rewrite Hi]. destruct Hi as (-> & -> & ->). cbn [fst snd].
    rewrite elab_lex_e. destruct (lex_e ri ts1 None None c) as [c'|]; [|reflexivity]. cbn [plus_u option_map].
    pose proof (IHb ri ts1 (in_exprs fs ++ u)) as Hb. cbv beta in Hb. rewrite Wb in Hb.
    destruct (lex_s b (ri, ts1)) as [(b' & (r2 & ts2))|]; [|now rewrite Hb]. destruct Hb as (_ & -> & ->).
    pose proof (IHs ri ts2 u) as Hs. cbv beta in Hs. rewrite Ws in Hs.
    destruct (lex_s st (ri, ts2)) as [(s' & (r3 & ts3))|]; [|now rewrite Hs]. destruct Hs as (_ & -> & ->). auto.
  - unfold plain. cbn. auto.
  - unfold plain. cbn. auto.
Qed.
End Lex.

(** Expressions without variables. *)
Lemma closed_same sg :
  (forall e, closedb e = true -> (forall V V', type_of V sg e = type_of V' sg e) /\ forall call st st', eval call st e = eval call st' e) /\
  (forall es, closedbs es = true -> (forall V V' ps, types_of_args V sg es ps = types_of_args V' sg es ps) /\ forall call st st', evals call st es = evals call st' es).
Proof.
  apply expr_exprs_ind.
  - intros v t _. split; reflexivity.
  - intros b _. split; reflexivity.
  - intros x C. discriminate C.
  - intros op a IH C. destruct (IH C) as (T & E). split; intros; cbn [type_of eval].
    + now rewrite (T V V').
    + now rewrite (E call st st').
  - intros op l IHl r IHr C. cbn [closedb] in C. apply andb_prop in C as (Cl & Cr). destruct (IHl Cl) as (Tl & El). destruct (IHr Cr) as (Tr & Er). split; intros; cbn [type_of eval].
    + now rewrite (Tl V V'), (Tr V V').
    + rewrite (El call st st'). destruct (eval call st' l); cbn; auto. now rewrite (Er call st st').
  - intros f es IH C. destruct (IH C) as (T & E). split.
    + intros V V'. cbn [type_of]. destruct (nth_error sg f) as [(ps & [t|])|]; try reflexivity. now rewrite (T V V').
    + intros call st st'. change (rbind (evals call st es) (fun vs => rbind (call f vs) of_opt) = rbind (evals call st' es) (fun vs => rbind (call f vs) of_opt)).
      now rewrite (E call st st').
  - intros a IH t C. destruct (IH C) as (T & E). split; intros; cbn [type_of eval].
    + now rewrite (T V V').
    + now rewrite (E call st st').
  - intros _. split; reflexivity.
  - intros e IH es IHs C. cbn [closedbs] in C. apply andb_prop in C as (C & Cs). destruct (IH C) as (T & E). destruct (IHs Cs) as (Ts & Es). split.
    + intros V V' ps. cbn [types_of_args]. destruct ps as [|p ps]; [reflexivity|]. rewrite (T V V'). destruct (type_of V' sg e); [|reflexivity]. now rewrite (Ts V V').
    + intros call st st'.
      change (rbind (eval call st e) (fun v => rbind (evals call st es) (fun vs => ROk (v :: vs))) = rbind (eval call st' e) (fun v => rbind (evals call st' es) (fun vs => ROk (v :: vs)))).
      now rewrite (E call st st'), (Es call st st').
Qed.
(** The constants inside functions do not mention variables. *)
Definition slot_ok (k : slot) : Prop := match snd k with Some e => closedb e = true | None => True end.
Section Slots.
Variables (base : nat) (fn : nat -> option nat) (ks : list (nat * Src.expr)) (sg : sigs) (ret : option Mir.ty).
Definition keeps (s : Syn.stmt) : Prop := forall r ts c r' ts',
  lex_s closedb base fn ks sg ret s (r, ts) = Some (c, (r', ts')) -> Forall slot_ok ts -> Forall slot_ok ts'.
Lemma lex_block_slots l : Forall keeps l -> forall r ts c r' ts',
  lblock_of (fun s st => lex_s closedb base fn ks sg ret s st) l (r, ts) = Some (c, (r', ts')) -> Forall slot_ok ts -> Forall slot_ok ts'.
Proof.
  intro F. induction F as [|s l H F IH]; intros r ts c r' ts' L O; cbn [lblock_of] in L.
  - now injection L as _ _ <-.
  - destruct (lex_s closedb base fn ks sg ret s (r, ts)) as [(c1 & (r1 & ts1))|] eqn:E; [|discriminate L].
    fold (lblock_of (fun s st => lex_s closedb base fn ks sg ret s st)) in L.
    destruct (lblock_of _ l _) as [(c2 & (r2 & ts2))|] eqn:E2 in L; [|discriminate L]. injection L as _ _ <-.
    exact (IH _ _ _ _ _ E2 (H _ _ _ _ _ E O)).
Qed.
Lemma lex_slots s : keeps s.
Proof.
  induction s as [p t e|c|l e|o|c a b IHa IHb|e|l IH|b IH|c b IH|i c st b IHi IHs IHb| |] using stmt_ind3;
    intros r ts c0 r' ts' L O; cbn [lex_s] in L; try discriminate L.
  - destruct p as [x|]; [|discriminate L]. destruct (match t with None => Some None | Some t0 => _ end) as [t'|]; [|discriminate L].
    destruct (lex_e _ _ _ _ _ _ _ _ e) as [e'|]; [|discriminate L]. destruct (match t' with Some _ => _ | None => _ end) as [vt|]; [|discriminate L].
    injection L as _ _ <-. apply Forall_app. split; [exact O|]. constructor; [exact I|constructor].
  - destruct (match c_ty c with None => Some None | Some t0 => _ end) as [t'|]; [|discriminate L].
    destruct (lex_e _ _ _ _ _ _ _ _ (c_val c)) as [e'|]; [|discriminate L]. destruct (type_of _ sg e') as [vt|]; [|discriminate L].
    destruct (_ && _) eqn:C; [|discriminate L]. apply andb_prop in C as (_ & C). injection L as _ _ <-. apply Forall_app. split; [exact O|]. constructor; [exact C|constructor].
  - destruct l; try discriminate L. destruct (refers _ x) as [d|]; [|discriminate L]. destruct (d <? base); [discriminate L|].
    destruct (nth_error ts (d - base)) as [(t & [k|])|]; try discriminate L. destruct (lex_e _ _ _ _ _ _ _ _ e); [|discriminate L]. injection L as _ _ <-. exact O.
  - destruct o as [e|]; [destruct (lex_e _ _ _ _ _ _ _ _ e); [|discriminate L]|]; injection L as _ _ <-; exact O.
  - destruct (lex_e _ _ _ _ _ _ _ _ c) as [c'|]; [|discriminate L]. destruct (lex_s _ _ _ _ _ _ a _) as [(a' & (r1 & ts1))|] eqn:Ea in L; [|discriminate L].
    pose proof (IHa _ _ _ _ _ Ea O) as O1. destruct b as [b|].
    + destruct (lex_s _ _ _ _ _ _ b _) as [(b' & (r2 & ts2))|] eqn:Eb in L; [|discriminate L]. injection L as _ _ <-. exact (IHb b eq_refl _ _ _ _ _ Eb O1).
    + injection L as _ _ <-. exact O1.
  - destruct (assert_arg e) as [a|]; [destruct (lex_e _ _ _ _ _ _ _ _ a)|destruct (lex_e _ _ _ _ _ _ _ _ e)]; try discriminate L; injection L as _ _ <-; exact O.
  - unfold within in L. destruct (lblock_of _ l _) as [(c1 & (r1 & ts1))|] eqn:E in L; [|discriminate L]. injection L as _ _ <-.
    exact (lex_block_slots l IH _ _ _ _ _ E O).
  - destruct (lex_s _ _ _ _ _ _ b _) as [(b' & (r1 & ts1))|] eqn:Eb in L; [|discriminate L]. injection L as _ _ <-. exact (IH _ _ _ _ _ Eb O).
  - destruct (lex_e _ _ _ _ _ _ _ _ c) as [c'|]; [|discriminate L]. destruct (lex_s _ _ _ _ _ _ b _) as [(b' & (r1 & ts1))|] eqn:Eb in L; [|discriminate L]. injection L as _ _ <-.
    exact (IH _ _ _ _ _ Eb O).
  - destruct (is_block b); cbn [negb] in L; [|discriminate L]. destruct (lex_s _ _ _ _ _ _ i _) as [(i' & (r1 & ts1))|] eqn:Ei in L; [|discriminate L].
    destruct (lex_e _ _ _ _ _ _ _ _ c) as [c'|]; [|discriminate L]. destruct (lex_s _ _ _ _ _ _ b _) as [(b' & (r2 & ts2))|] eqn:Eb in L; [|discriminate L].
    destruct (lex_s _ _ _ _ _ _ st _) as [(s' & (r3 & ts3))|] eqn:Es in L; [|discriminate L]. injection L as _ _ <-.
    exact (IHs _ _ _ _ _ Es (IHb _ _ _ _ _ Eb (IHi _ _ _ _ _ Ei O))).
  - injection L as _ _ <-. exact O.
  - injection L as _ _ <-. exact O.
Qed.
End Slots.

(** ** The reading means what the file says *)
Lemma var_types_app ts more x : x < length ts -> var_types (ts ++ more) x = var_types ts x.
Proof. intro H. unfold var_types. now rewrite app_nth1. Qed.
Lemma refers_app a b x : refers (a ++ b) x = match refers a x with Some d => Some d | None => refers b x end.
Proof. induction a as [|(y & d) a IH]; [reflexivity|]. cbn. destruct (String.eqb y x); [reflexivity|exact IH]. Qed.

Lemma Forall2_len {A B} {R : A -> B -> Prop} {l l'} : Forall2 R l l' -> length l = length l'.
Proof. induction 1; cbn; auto. Qed.

Section Sim.
Variables (base : nat) (fn : nat -> option nat) (ks : list (nat * Src.expr)) (sg : sigs) (ret : option Mir.ty) (rg : env) (TS : list slot).
Hypothesis Hrg : forall x d, refers rg x = Some d -> d < base.
Variables (call : nat -> list val -> res (option val)) (ncall : string -> list val -> res (option val)) (params : string -> option (list Mir.ty)) (konst : string -> option (res val)).
Hypothesis Hcall : forall d k ps t f vs, nth_error sg k = Some (ps, t) -> refers rg f = Some d -> fn d = Some k -> Forall2 fits ps vs ->
  ncall f vs = call k vs /\ (forall o, call k vs = ROk o -> fit_ret t o).
Hypothesis Hparams : forall d k ps t f, nth_error sg k = Some (ps, t) -> refers rg f = Some d -> fn d = Some k -> params f = Some ps.
(** The constants: their types and values do not depend on the variables. *)
Hypothesis Hconst : forall d e, const_value ks d = Some e -> forall V V', type_of V sg e = type_of V' sg e.
Hypothesis Hkon : forall d e x, refers rg x = Some d -> const_value ks d = Some e -> exists t a,
  (forall V, type_of V sg e = Some t) /\ konst x = Some a /\ forall st, eval call st e = a /\ forall v, a = ROk v -> fits t v.
Hypothesis Hslots : Forall slot_ok TS.
Let V := var_types TS.
Set Default Proof Using "All".

(** The variables in force, with numbers below [base + n]. *)
Definition wf (n : nat) (rl : env) : Prop := Forall (fun p => base <= snd p < base + n) rl /\ NoDup (map snd rl).
(** The store has the value of the variable; the constant is read as its value. *)
Definition holds (s : store) (d : nat) (w : named) : Prop :=
  match w with
  | NVar v => s (d - base) = Some v /\ exists t, nth_error TS (d - base) = Some (t, None)
  | NConst a => exists t e, nth_error TS (d - base) = Some (t, Some e) /\ (forall V, type_of V sg e = Some t) /\
      forall st, eval call st e = a /\ forall v, a = ROk v -> fits t v
  end.
(** The store has the named values. *)
Definition agree (rl : env) (s : store) (ne : names) : Prop :=
  Forall2 (fun p q => fst p = fst q /\ holds s (snd p) (snd q)) rl ne /\ (forall x v, s x = Some v -> fits (V x) v).

Lemma agree_var rl s ne x : agree rl s ne ->
  match refers rl x with Some d => exists w, value_of ne x = Some w /\ holds s d w | None => value_of ne x = None end.
Proof.
  intros (A & _). induction A as [|(y & d) (y' & v) rl ne (E & F) A IH]; [reflexivity|]. cbn [fst snd] in E, F. subst y'.
  cbn [refers value_of]. destruct (String.eqb y x); [eauto|exact IH].
Qed.
Lemma wf_refers n rl x d : wf n rl -> refers rl x = Some d -> base <= d < base + n.
Proof.
  intros (W & _). induction W as [|(y & k) rl H W IH]; [discriminate|]. cbn. destruct (String.eqb y x); [|exact IH]. intro E; injection E as <-. exact H.
Qed.
Lemma wf_le n m rl : n <= m -> wf n rl -> wf m rl.
Proof. intros L (W & N). split; [|exact N]. revert W. apply Forall_impl. intros a H. lia. Qed.

Definition prefix_of (ts : list slot) : Prop := exists more, TS = ts ++ more.
Lemma prefix_app a b : prefix_of (a ++ b) -> prefix_of a.
Proof. intros (m & E). exists (b ++ m). now rewrite app_assoc. Qed.

Lemma prefix_nth ts i k : prefix_of ts -> nth_error ts i = Some k -> nth_error TS i = Some k.
Proof. intros (m & E) H. rewrite E, nth_error_app1; [exact H|]. apply nth_error_Some. congruence. Qed.

Lemma lex_types : forall e r ts h x e', lex_e base fn ks sg r ts h x e = Some e' -> prefix_of ts ->
  type_of V sg e' = type_of (var_types ts) sg e'.
Proof.
  induction e as [v s|b|x|op a IH|op l r IHl IHr|f es IHf IHes|a m IH|l r IHl IHr|n fs IHfs|es IH|a i IH|es IH|a n IH|a t IH|t n IH|a IH]
    using expr_ind2; intros r0 ts h ex e' L Pr; cbn [lex_e] in L; try discriminate L.
  - destruct s as [s|]; [destruct (suffix_type s)|destruct (literal_type h ex)]; try discriminate L; injection L as <-; reflexivity.
  - injection L as <-; reflexivity.
  - destruct (refers r0 x) as [d|]; [|discriminate L]. destruct (is_assert x); [discriminate L|]. destruct (d <? base); [now apply (Hconst _ _ L)|].
    destruct (nth_error ts (d - base)) as [(t & [k|])|] eqn:E; [| |discriminate L]; injection L as <-.
    { destruct Pr as (more & Em). pose proof Hslots as Hs. rewrite Em in Hs. apply Forall_app in Hs as (Hs & _). rewrite Forall_forall in Hs.
      apply (proj1 (closed_same sg) k (Hs _ (nth_error_In _ _ E))). }
    cbn [type_of]. f_equal. destruct Pr as (more & Em). unfold V. rewrite Em, var_types_app; [reflexivity|]. apply nth_error_Some. rewrite E. discriminate.
  - destruct (lex_e base fn ks sg r0 ts h None a) eqn:E; [|discriminate L]. injection L as <-. cbn [type_of]. now rewrite (IH _ _ _ _ _ E Pr).
  - destruct (lex_e base fn ks sg r0 ts h None l) eqn:E; [|discriminate L]. destruct (lex_e base fn ks sg r0 ts h _ r) eqn:E2 in L; [|discriminate L].
    injection L as <-. cbn [type_of]. now rewrite (IHl _ _ _ _ _ E Pr), (IHr _ _ _ _ _ E2 Pr).
  - destruct f as [| |f| | | | | | | | | | | | |]; try discriminate L. destruct (refers r0 f) as [d|]; [|discriminate L].
    destruct (is_assert f || negb (d <? base)); [discriminate L|]. destruct (fn d) as [k|]; [|discriminate L]. destruct (nth_error sg k) as [(ps & t)|] eqn:Es; [|discriminate L].
    match type of L with match ?x with Some _ => _ | None => _ end = _ => destruct x as [es'|] eqn:E in L; [|discriminate L] end.
    injection L as <-. cbn [type_of]. rewrite Es. destruct t as [t|]; [|reflexivity].
    assert (K : forall qs, types_of_args V sg es' qs = types_of_args (var_types ts) sg es' qs); [|now rewrite K].
    clear Es. revert ps es' E. induction IHes as [|a es Ha IHes IH]; intros ps es' E qs.
    + injection E as <-. reflexivity.
    + destruct (lex_e base fn ks sg r0 ts h (hd_error ps) a) as [a'|] eqn:Ea; [|discriminate E].
      match type of E with match ?x with Some _ => _ | None => _ end = _ => destruct x as [es2|] eqn:E2 in E; [|discriminate E] end.
      injection E as <-. cbn [types_of_args]. destruct qs as [|q qs]; [reflexivity|]. rewrite (Ha _ _ _ _ _ Ea Pr).
      destruct (type_of (var_types ts) sg a'); [|reflexivity]. f_equal. exact (IH _ _ E2 qs).
  - destruct (scalar_ty t); [|discriminate L]. destruct (lex_e base fn ks sg r0 ts h None a) eqn:E; [|discriminate L]. injection L as <-. cbn [type_of]. now rewrite (IH _ _ _ _ _ E Pr).
  - exact (IH _ _ _ _ _ L Pr).
Qed.

(** Static facts of statements. *)
Definition grows (rl : env) (ts : list slot) (r' : env) (ts' : list slot) : Prop :=
  exists rl' new more, r' = rl' ++ rg /\ rl' = new ++ rl /\ wf (length ts') rl' /\ ts' = ts ++ more.
Lemma grows_refl rl ts : wf (length ts) rl -> grows rl ts (rl ++ rg) ts.
Proof. intro W. exists rl, [], []. rewrite app_nil_r. auto. Qed.
Lemma grows_same rl ts more : wf (length ts) rl -> grows rl ts (rl ++ rg) (ts ++ more).
Proof. intro W. exists rl, [], more. split; [reflexivity|]. split; [reflexivity|]. split; [|reflexivity]. apply (wf_le (length ts)); [rewrite app_length; lia|exact W]. Qed.
Lemma wf_len (ts more : list slot) rl : wf (length ts) rl -> wf (length (ts ++ more)) rl.
Proof. apply wf_le. rewrite app_length. lia. Qed.
Definition static (s : Syn.stmt) : Prop := forall rl ts c r' ts', wf (length ts) rl ->
  lex_s closedb base fn ks sg ret s (rl ++ rg, ts) = Some (c, (r', ts')) -> grows rl ts r' ts'.
Lemma lex_block_static l : Forall static l -> forall rl ts c r' ts', wf (length ts) rl ->
  lblock_of (fun s st => lex_s closedb base fn ks sg ret s st) l (rl ++ rg, ts) = Some (c, (r', ts')) -> grows rl ts r' ts'.
Proof.
  intro F. induction F as [|s l H F IH]; intros rl ts c r' ts' W L; cbn [lblock_of] in L.
  - injection L as <- <- <-. now apply grows_refl.
  - destruct (lex_s closedb base fn ks sg ret s (rl ++ rg, ts)) as [(c1 & (r1 & ts1))|] eqn:E; [|discriminate L].
    destruct (H _ _ _ _ _ W E) as (rl1 & new & more & -> & -> & W1 & ->).
    fold (lblock_of (fun s st => lex_s closedb base fn ks sg ret s st)) in L.
    destruct (lblock_of _ l _) as [(c2 & (r2 & ts2))|] eqn:E2 in L; [|discriminate L]. injection L as <- <- <-.
    destruct (IH _ _ _ _ _ W1 E2) as (rl2 & new2 & more2 & -> & -> & W2 & ->).
    exists (new2 ++ new ++ rl), (new2 ++ new), (more ++ more2). rewrite <- !app_assoc in *. split; [reflexivity|]. split; [reflexivity|]. split; [exact W2|reflexivity].
Qed.
Lemma lex_static s : static s.
Proof.
  induction s as [p t e|c|l e|o|c a b IHa IHb|e|l IH|b IH|c b IH|i c st b IHi IHs IHb| |] using stmt_ind3;
    intros rl ts c0 r' ts' W L; cbn [lex_s] in L; try discriminate L.
  - destruct p as [x|]; [|discriminate L]. destruct (match t with None => Some None | Some t0 => _ end) as [t'|]; [|discriminate L].
    destruct (lex_e _ _ _ _ _ _ _ _ e) as [e'|]; [|discriminate L]. destruct (match t' with Some _ => _ | None => _ end) as [vt|]; [|discriminate L].
    injection L as <- <- <-. exists ((x, base + length ts) :: rl), [(x, base + length ts)], [(vt, None)]. split; [reflexivity|]. split; [reflexivity|]. split; [|reflexivity]. split.
    + rewrite app_length. cbn [length]. constructor; [cbn; lia|]. destruct W as (W & _). revert W. apply Forall_impl. intros p H. lia.
    + cbn. constructor; [|apply W]. intro I. apply in_map_iff in I. destruct I as (p & E & I). destruct W as (W & _).
      rewrite Forall_forall in W. specialize (W p I). lia.
  - destruct (match c_ty c with None => Some None | Some t0 => _ end) as [t'|]; [|discriminate L].
    destruct (lex_e _ _ _ _ _ _ _ _ (c_val c)) as [e'|]; [|discriminate L]. destruct (type_of _ sg e') as [vt|]; [|discriminate L]. destruct (_ && _); [|discriminate L].
    injection L as <- <- <-. exists ((c_name c, base + length ts) :: rl), [(c_name c, base + length ts)], [(vt, Some e')]. split; [reflexivity|]. split; [reflexivity|]. split; [|reflexivity]. split.
    + rewrite app_length. cbn [length]. constructor; [cbn; lia|]. destruct W as (W & _). revert W. apply Forall_impl. intros p H. lia.
    + cbn. constructor; [|apply W]. intro I. apply in_map_iff in I. destruct I as (p & E & I). destruct W as (W & _).
      rewrite Forall_forall in W. specialize (W p I). lia.
  - destruct l; try discriminate L. destruct (refers _ x) as [d|]; [|discriminate L]. destruct (d <? base); [discriminate L|].
    destruct (nth_error ts (d - base)) as [(t & [k|])|]; try discriminate L. destruct (lex_e _ _ _ _ _ _ _ _ e); [|discriminate L]. injection L as <- <- <-. now apply grows_refl.
  - destruct o as [e|]; [destruct (lex_e _ _ _ _ _ _ _ _ e); [|discriminate L]|]; injection L as <- <- <-; now apply grows_refl.
  - destruct (lex_e _ _ _ _ _ _ _ _ c) as [c'|]; [|discriminate L]. destruct (lex_s _ _ _ _ _ _ a _) as [(a' & (r1 & ts1))|] eqn:Ea in L; [|discriminate L].
    destruct (IHa _ _ _ _ _ W Ea) as (rl1 & new & more & _ & _ & _ & ->). pose proof (wf_len ts more rl W) as W1.
    destruct b as [b|].
    + destruct (lex_s _ _ _ _ _ _ b _) as [(b' & (r2 & ts2))|] eqn:Eb in L; [|discriminate L]. injection L as <- <- <-.
      destruct (IHb b eq_refl _ _ _ _ _ W1 Eb) as (rl2 & new2 & more2 & _ & _ & _ & ->). rewrite <- app_assoc. now apply grows_same.
    + injection L as <- <- <-. now apply grows_same.
  - destruct (assert_arg e) as [a|]; [destruct (lex_e _ _ _ _ _ _ _ _ a)|destruct (lex_e _ _ _ _ _ _ _ _ e)]; try discriminate L; injection L as <- <- <-; now apply grows_refl.
  - unfold within in L. destruct (lblock_of _ l _) as [(c1 & (r1 & ts1))|] eqn:E in L; [|discriminate L]. injection L as <- <- <-.
    destruct (lex_block_static l IH _ _ _ _ _ W E) as (rl1 & new & more & _ & _ & _ & ->). now apply grows_same.
  - destruct (lex_s _ _ _ _ _ _ b _) as [(b' & (r1 & ts1))|] eqn:Eb in L; [|discriminate L]. injection L as <- <- <-.
    destruct (IH _ _ _ _ _ W Eb) as (rl1 & new & more & _ & _ & _ & ->). now apply grows_same.
  - destruct (lex_e _ _ _ _ _ _ _ _ c) as [c'|]; [|discriminate L]. destruct (lex_s _ _ _ _ _ _ b _) as [(b' & (r1 & ts1))|] eqn:Eb in L; [|discriminate L]. injection L as <- <- <-.
    destruct (IH _ _ _ _ _ W Eb) as (rl1 & new & more & _ & _ & _ & ->). now apply grows_same.
  - destruct (is_block b); cbn [negb] in L; [|discriminate L]. destruct (lex_s _ _ _ _ _ _ i _) as [(i' & (r1 & ts1))|] eqn:Ei in L; [|discriminate L].
    destruct (IHi _ _ _ _ _ W Ei) as (rl1 & new & more & -> & -> & W1 & ->).
    destruct (lex_e _ _ _ _ _ _ _ _ c) as [c'|]; [|discriminate L]. destruct (lex_s _ _ _ _ _ _ b _) as [(b' & (r2 & ts2))|] eqn:Eb in L; [|discriminate L].
    destruct (IHb _ _ _ _ _ W1 Eb) as (rl2 & new2 & more2 & _ & _ & _ & ->).
    destruct (lex_s _ _ _ _ _ _ st _) as [(s' & (r3 & ts3))|] eqn:Es in L; [|discriminate L]. injection L as <- <- <-.
    destruct (IHs _ _ _ _ _ (wf_len _ more2 _ W1) Es) as (rl3 & new3 & more3 & _ & _ & _ & ->). rewrite <- !app_assoc. now apply grows_same.
  - injection L as <- <- <-. now apply grows_refl.
  - injection L as <- <- <-. now apply grows_refl.
Qed.

(** Expressions. *)
Definition stands (x : option Mir.ty) (t : Mir.ty) (a : nval) (v : val) : Prop :=
  a = Val v \/ exists z, a = Num z /\ lit_val z t = ROk v /\ (x = None -> t = TFelt).
Definition rel {A B} (R : A -> B -> Prop) (a : res A) (b : res B) : Prop :=
  match a with
  | ROk v => exists w, b = ROk w /\ R v w
  | RTrap => b = RTrap
  | RStuck => b = RStuck
  | RFuel => b = RFuel
  end.
Lemma rel_bind {A B A' B'} (R : A -> B -> Prop) (R' : A' -> B' -> Prop) a b k k' :
  rel R a b -> (forall v w, R v w -> rel R' (k v) (k' w)) -> rel R' (rbind a k) (rbind b k').
Proof. destruct a; cbn; [intros (w & -> & H) K; exact (K _ _ H)|intros -> _; reflexivity..]. Qed.
Definition evr (x : option Mir.ty) (t : Mir.ty) (v : val) (a : nval) : Prop := fits t v /\ stands x t a v.

Lemma literal_default h x t : literal_type h x = Some t -> x = None -> t = TFelt.
Proof. intros L ->. unfold literal_type in L. destruct h as [[]|]; cbn in L; try discriminate L; now injection L as <-. Qed.
Lemma stands_at x t a v : stands x t a v -> at_type t a = ROk v.
Proof. intros [->|(z & -> & L & _)]; [reflexivity|exact L]. Qed.
Lemma stands_felt t a v : stands None t a v -> at_type TFelt a = ROk v.
Proof. intros [->|(z & -> & L & H)]; [reflexivity|]. now rewrite (H eq_refl) in L. Qed.
Lemma stands_like x t a v w : fits t w -> stands x t a v -> like w a = v.
Proof.
  intros F [->|(z & -> & L & _)]; [reflexivity|]. unfold fits in F. cbn [like].
  destruct t; try discriminate L; injection L as <-; destruct w; try discriminate F; reflexivity.
Qed.
Lemma operate_same op x t a v b w : fits t v -> fits t w -> stands None t a v -> stands x t b w ->
  operate op a b = src_bin (sop_of op) v w.
Proof.
  intros Fv Fw Sa Sb. replace (sop_of op) with (bop_meaning op) by (destruct op; reflexivity).
  destruct Sa as [->|(z & -> & L & H)].
  - cbn [operate]. now rewrite (stands_like _ _ _ _ _ Fv Sb).
  - rewrite (H eq_refl) in *. cbn in L. injection L as <-. destruct Sb as [->|(z' & -> & L' & _)].
    + cbn [operate like]. unfold fits in Fw. destruct w; try discriminate Fw. reflexivity.
    + cbn in L'. injection L' as <-. reflexivity.
Qed.
Lemma lex_sim_e rl ts st ne : prefix_of ts -> wf (length ts) rl -> agree rl st ne ->
  forall e h x e' t, lex_e base fn ks sg (rl ++ rg) ts h x e = Some e' -> type_of V sg e' = Some t ->
  rel (evr x t) (eval call st e') (nev params konst ncall ne e).
Proof.
  intros Pr W Ag.
  induction e as [v s|b|x|op a IH|op l r IHl IHr|f es IHf IHes|a m IH|l r IHl IHr|n fs IHfs|es IH|a i IH|es IH|a n IH|a u IH|u n IH|a IH]
    using expr_ind2; intros h ex e' t L T; pose proof L as L0; cbn [lex_e] in L; try discriminate L; cbn [nev].
  - destruct s as [s|].
    + destruct (suffix_type s) as [ty|] eqn:Es; [|discriminate L]. injection L as <-. cbn [type_of] in T.
      unfold suffix_type in Es. destruct (String.eqb s "u32"); [|destruct (String.eqb s "felt"); [|discriminate Es]]; injection Es as <-; cbn [mty] in T;
        match type of T with (if ?b then _ else _) = _ => destruct b eqn:B end; try discriminate T; injection T as <-;
        (apply andb_prop in B as (B1 & B2); apply Z.leb_le in B1; apply Z.ltb_lt in B2); cbn; eexists; (split; [reflexivity|]); (split; [|left; reflexivity]);
        unfold fits; cbn [shape]; [apply u32b_iff|apply wfb_iff]; split; assumption.
    + destruct (literal_type h ex) as [ty|] eqn:El; [|discriminate L]. injection L as <-. cbn [type_of] in T.
      match type of T with (if ?b then _ else _) = _ => destruct b eqn:B end; [|discriminate T]. injection T as <-.
      assert (K : lit_val (Z.of_N v) ty = RStuck \/ exists w, lit_val (Z.of_N v) ty = ROk w /\ fits ty w).
      { apply andb_prop in B as (B1 & B2). apply Z.leb_le in B1. destruct ty; try (left; reflexivity); right; (eexists; split; [reflexivity|]);
          apply Z.ltb_lt in B2; unfold fits; cbn [shape]; [apply wfb_iff|apply u32b_iff]; split; assumption. }
      destruct K as [K|(w & K & Fw)].
      * exfalso. apply andb_prop in B as (B1 & B2). apply Z.leb_le in B1. destruct ty; try discriminate K; apply Z.ltb_lt in B2; lia.
      * cbn [eval]. rewrite K. cbn [rel]. eexists. split; [reflexivity|]. split; [exact Fw|]. right. eexists. split; [reflexivity|]. split; [exact K|].
        intro E. exact (literal_default _ _ _ El E).
  - injection L as <-. cbn in T. injection T as <-. cbn. eexists. split; [reflexivity|]. split; [reflexivity|left; reflexivity].
  - rewrite refers_app in L. pose proof (agree_var rl st ne x Ag) as Av. destruct (refers rl x) as [d|] eqn:Rx.
    + destruct Av as (w & -> & Sv). destruct (is_assert x); [discriminate L|].
      replace (d <? base) with false in L by (symmetry; apply Nat.ltb_ge; pose proof (wf_refers _ _ _ _ W Rx); lia).
      destruct (nth_error ts (d - base)) as [q|] eqn:En; [|discriminate L]. apply (prefix_nth _ _ _ Pr) in En.
      destruct w as [v|a]; cbn [holds] in Sv.
      * destruct Sv as (Sv & t0 & Et). rewrite En in Et. injection Et as ->. injection L as <-. cbn in T. injection T as <-. cbn [eval]. rewrite Sv. cbn.
        eexists. split; [reflexivity|]. split; [exact (proj2 Ag _ _ Sv)|left; reflexivity].
      * destruct Sv as (t0 & e0 & Et & Ty & Ev). rewrite En in Et. injection Et as ->. injection L as <-. rewrite Ty in T. injection T as <-.
        destruct (Ev st) as (-> & Fa). destruct a as [v| | |]; try reflexivity. cbn. eexists. split; [reflexivity|]. split; [exact (Fa _ eq_refl)|left; reflexivity].
    + rewrite Av. destruct (refers rg x) as [d|] eqn:Eg; [|discriminate L]. destruct (is_assert x); [discriminate L|].
      pose proof (Hrg _ _ Eg) as Hd. apply Nat.ltb_lt in Hd. rewrite Hd in L. destruct (Hkon _ _ _ Eg L) as (t' & a & Ty & -> & Ek).
      rewrite Ty in T. injection T as <-. destruct (Ek st) as (-> & Fa). destruct a as [v| | |]; try reflexivity.
      cbn. eexists. split; [reflexivity|]. split; [exact (Fa _ eq_refl)|left; reflexivity].
  - destruct (lex_e base fn ks sg _ ts h None a) as [a'|] eqn:Ea; [|discriminate L]. injection L as <-. cbn [type_of] in T.
    destruct (type_of V sg a') as [ta|] eqn:Ta; [|discriminate T]. cbn [eval].
    eapply rel_bind; [exact (IH _ _ _ _ Ea Ta)|]. intros v w (Fv & Sv). rewrite (stands_felt _ _ _ Sv). cbn [rbind].
    replace (uop_meaning op) with (unop_of op) by (destruct op; reflexivity).
    pose proof (src_un_fits _ _ _ _ T Fv) as Fr. destruct (src_un (unop_of op) v); cbn in *; auto. eexists. split; [reflexivity|]. split; [exact Fr|left; reflexivity].
  - destruct (lex_e base fn ks sg _ ts h None l) as [l'|] eqn:El; [|discriminate L]. destruct (lex_e base fn ks sg _ ts h _ r) as [r'|] eqn:Er in L; [|discriminate L].
    injection L as <-. cbn [type_of] in T. destruct (type_of V sg l') as [tl|] eqn:Tl; [|discriminate T]. destruct (type_of V sg r') as [tr|] eqn:Tr; [|discriminate T].
    destruct (ty_eqb tl tr) eqn:Q; [|discriminate T]. apply ty_eqb_eq in Q. subst tr. cbn [eval].
    eapply rel_bind; [exact (IHl _ _ _ _ El Tl)|]. intros v a (Fv & Sv).
    eapply rel_bind; [exact (IHr _ _ _ _ Er Tr)|]. intros w b (Fw & Sw).
    rewrite (operate_same op _ _ _ _ _ _ Fv Fw Sv Sw). pose proof (src_bin_fits _ _ _ _ _ T Fv Fw) as Fr.
    destruct (src_bin (sop_of op) v w); cbn in *; auto. eexists. split; [reflexivity|]. split; [exact Fr|left; reflexivity].
  - destruct f as [| |f| | | | | | | | | | | | |]; try discriminate L. rewrite refers_app in L. pose proof (agree_var rl st ne f Ag) as Av.
    destruct (refers rl f) as [d|] eqn:Rf.
    { exfalso. pose proof (wf_refers _ _ _ _ W Rf) as Hd. assert (E : (d <? base) = false) by (apply Nat.ltb_ge; lia). rewrite E, orb_true_r in L. discriminate L. }
    destruct (refers rg f) as [d|] eqn:Rg; [|discriminate L]. destruct (is_assert f || negb (d <? base)); [discriminate L|].
    destruct (fn d) as [k|] eqn:Fd; [|discriminate L]. destruct (nth_error sg k) as [(ps & rt)|] eqn:Es; [|discriminate L].
    match type of L with match ?x with Some _ => _ | None => _ end = _ => destruct x as [es'|] eqn:Ees in L; [|discriminate L] end.
    injection L as <-. cbn [type_of] in T. rewrite Es in T. destruct rt as [rt|]; [|discriminate T].
    destruct (types_of_args V sg es' ps) eqn:Ta; [|discriminate T]. injection T as <-.
    change (eval call st (Src.ECall k es')) with (rbind (evals call st es') (fun vs => rbind (call k vs) of_opt)).
    unfold called. rewrite Av, (Hparams _ _ _ _ _ Es Rg Fd).
    assert (K : rel (fun vs ws => vs = ws /\ Forall2 fits ps vs) (evals call st es') (arguments (fun a => nev params konst ncall ne a) es ps)).
    { clear Es L0. revert ps es' Ees Ta. induction IHes as [|a es Ha IHes IH]; intros ps es' Ees Ta.
      - injection Ees as <-. destruct ps; [|discriminate Ta]. cbn. eexists. split; [reflexivity|]. auto.
      - destruct (lex_e base fn ks sg _ ts h (hd_error ps) a) as [a'|] eqn:Ea; [|discriminate Ees].
        match type of Ees with match ?x with Some _ => _ | None => _ end = _ => destruct x as [es2|] eqn:E2 in Ees; [|discriminate Ees] end.
        injection Ees as <-. destruct ps as [|p ps]; [discriminate Ta|]. cbn [types_of_args] in Ta.
        destruct (type_of V sg a') as [ta|] eqn:Tya; [|discriminate Ta]. apply andb_prop in Ta as (Q & Ta). apply ty_eqb_eq in Q. subst ta.
        change (evals call st (ECons a' es2)) with (rbind (eval call st a') (fun v => rbind (evals call st es2) (fun vs => ROk (v :: vs)))).
        cbn [arguments hd tl hd_error] in *. fold (arguments (fun a => nev params konst ncall ne a)).
        apply (rel_bind (fun v w => v = w /\ fits p v)).
        + pose proof (Ha _ _ _ _ Ea Tya) as R. destruct (eval call st a') as [v| | |]; cbn [rel] in R; try (rewrite R; reflexivity).
          destruct R as (w & -> & Fv & Sv). cbn [rbind]. rewrite (stands_at _ _ _ _ Sv). cbn [rel]. exists v. auto.
        + intros v w (<- & Fv). apply (rel_bind (fun vs ws => vs = ws /\ Forall2 fits ps vs)); [exact (IH _ _ E2 Ta)|].
          intros vs ws (<- & Fvs). cbn. eexists. split; [reflexivity|]. auto. }
    destruct (evals call st es') as [vs| | |]; cbn [rel] in K; [|rewrite K; reflexivity..]. destruct K as (ws & -> & -> & Fvs). cbn [rbind].
    destruct (Hcall _ _ _ _ _ _ Es Rg Fd Fvs) as (-> & Fr). destruct (call k ws) as [o| | |]; cbn [rbind]; try reflexivity. specialize (Fr o eq_refl).
    destruct o as [v|]; [|destruct Fr]. cbn. eexists. split; [reflexivity|]. split; [exact Fr|left; reflexivity].
  - destruct (scalar_ty u) as [u'|]; [|discriminate L]. destruct (lex_e base fn ks sg _ ts h None a) as [a'|] eqn:Ea; [|discriminate L]. injection L as <-.
    cbn [type_of] in T. destruct (type_of V sg a') as [ta|] eqn:Ta; [|discriminate T]. destruct ta; try discriminate T. destruct u'; try discriminate T. injection T as <-.
    cbn [eval]. eapply rel_bind; [exact (IH _ _ _ _ Ea Ta)|]. intros v w (Fv & Sv). rewrite (stands_felt _ _ _ Sv). cbn [rbind].
    unfold fits in Fv. destruct v; try discriminate Fv. destruct (z <? P)%Z eqn:Lz; [|reflexivity]. cbn. eexists. split; [reflexivity|]. split; [|left; reflexivity].
    unfold fits. cbn [shape] in *. apply u32b_iff in Fv. apply wfb_iff. apply Z.ltb_lt in Lz. lia.
  - pose proof (IH _ _ _ _ L T) as R. destruct (eval call st e') as [v| | |]; cbn [rel] in *; auto. destruct R as (w & -> & Fv & Sv).
    eexists. split; [reflexivity|]. split; [exact Fv|]. destruct Sv as [->|(z & -> & Lz & Hz)]; [left; reflexivity|right]. eexists. split; [reflexivity|]. auto.
Qed.

(** Statements. *)
Definition orel (rl rl' : env) (o : out) (no : nout) : Prop :=
  match o, no with
  | ONext s, NNext ne => agree rl' s ne
  | OBreak s, NBreak ne => exists new, agree (new ++ rl) s ne
  | OCont s, NCont ne => exists new, agree (new ++ rl) s ne
  | SrcSem.ORet v, NRet w => v = w /\ fit_ret ret v
  | _, _ => False
  end.
Lemma agree_length rl s ne : agree rl s ne -> length ne = length rl.
Proof. intros (A & _). symmetry. exact (Forall2_len A). Qed.
Lemma agree_drop new rl s ne' ne : agree (new ++ rl) s ne' -> length ne = length rl -> agree rl s (drop_to ne ne').
Proof.
  intros (A & B) E. split; [|exact B]. apply Forall2_app_inv_l in A as (n1 & n2 & A1 & A2 & ->). unfold drop_to.
  pose proof (Forall2_len A1). pose proof (Forall2_len A2). rewrite app_length, E.
  replace (length n1 + length n2 - length rl) with (length n1) by lia. rewrite skipn_app, skipn_all, Nat.sub_diag. exact A2.
Qed.
Lemma orel_leave rl new o no ne : orel rl (new ++ rl) o no -> length ne = length rl -> orel rl rl o (leave ne no).
Proof.
  intros H E. destruct o, no; cbn in *; try contradiction.
  - exact (agree_drop _ _ _ _ _ H E).
  - destruct H as (w & H). exists []. exact (agree_drop _ _ _ _ _ H E).
  - destruct H as (w & H). exists []. exact (agree_drop _ _ _ _ _ H E).
  - exact H.
Qed.
Lemma rel_leaving rl new x y ne : rel (orel rl (new ++ rl)) x y -> length ne = length rl -> rel (orel rl rl) x (leaving ne y).
Proof.
  intros H E. unfold leaving. destruct x; cbn [rel] in *; [|rewrite H; reflexivity..]. destruct H as (w & -> & H). cbn [rbind].
  eexists. split; [reflexivity|]. exact (orel_leave _ _ _ _ _ H E).
Qed.
(** A larger environment outside. *)
Lemma orel_outer rl new rl' o no : orel (new ++ rl) rl' o no -> orel rl rl' o no.
Proof. destruct o, no; cbn; auto; intros (w & H); exists (w ++ new); now rewrite <- app_assoc. Qed.
Lemma rel_impl {A B} (R R' : A -> B -> Prop) a b : rel R a b -> (forall v w, R v w -> R' v w) -> rel R' a b.
Proof. destruct a; cbn; auto. intros (w & -> & H) K. eauto. Qed.

Lemma holds_set s d w i v : d - base <> i -> holds s d w -> holds (set s i v) d w.
Proof. intros N H. destruct w as [u|a]; [|exact H]. cbn in *. unfold set. destruct (Nat.eqb_spec (d - base) i); [contradiction|exact H]. Qed.
Lemma agree_let rl s ne n x v t : nth_error TS n = Some (t, None) -> wf n rl -> agree rl s ne -> fits (V n) v -> agree ((x, base + n) :: rl) (set s n v) ((x, NVar v) :: ne).
Proof.
  intros Et (W & _) (A & B) F. split.
  - constructor.
    + cbn. split; [reflexivity|]. unfold set. replace (base + n - base) with n by lia. rewrite Nat.eqb_refl. eauto.
    + clear F Et. revert W A. clear B. intros W A. induction A as [|p q rl ne (E & H) A IH]; constructor.
      * split; [exact E|]. inversion W as [|? ? W1 W2]; subst. apply holds_set; [lia|exact H].
      * apply IH. now inversion W.
  - intros y w. unfold set. destruct (Nat.eqb_spec y n) as [->|]; [intro E; injection E as <-; exact F|apply B].
Qed.
Lemma agree_const rl s ne n x a t e : nth_error TS n = Some (t, Some e) -> (forall V, type_of V sg e = Some t) ->
  (forall st, eval call st e = a /\ forall v, a = ROk v -> fits t v) -> agree rl s ne -> agree ((x, base + n) :: rl) s ((x, NConst a) :: ne).
Proof.
  intros Et Ty Ev (A & B). split; [|exact B]. constructor; [|exact A]. cbn. split; [reflexivity|]. replace (base + n - base) with n by lia. eauto 6.
Qed.
Lemma agree_assign n rl s ne x d v old : wf n rl -> agree rl s ne -> refers rl x = Some d -> fits (V (d - base)) v ->
  value_of ne x = Some (NVar old) -> exists ne', change ne x v = Some ne' /\ agree rl (set s (d - base) v) ne'.
Proof.
  intros (W & N) (A & B) R F O.
  assert (B' : forall y w, set s (d - base) v y = Some w -> fits (V y) w).
  { intros y w. unfold set. destruct (Nat.eqb_spec y (d - base)) as [->|]; [intro E; injection E as <-; exact F|apply B]. }
  enough (K : exists ne', change ne x v = Some ne' /\ Forall2 (fun p q => fst p = fst q /\ holds (set s (d - base) v) (snd p) (snd q)) rl ne').
  { destruct K as (ne' & E & K). exists ne'. split; [exact E|]. split; assumption. }
  clear B B' F. induction A as [|(y & k) (y' & w) rl ne (E & H) A IH]; [discriminate R|]. cbn [fst snd] in E, H. subst y'.
  inversion W as [|? ? W1 W2]; subst. cbn [map snd] in N. inversion N as [|? ? N1 N2]; subst. cbn [refers value_of change] in *.
  destruct (String.eqb y x).
  - injection R as ->. injection O as ->. destruct H as (_ & Et). eexists. split; [reflexivity|]. constructor.
    + cbn. split; [reflexivity|]. unfold set. rewrite Nat.eqb_refl. auto.
    + clear IH W N N2 Et. revert W1 W2 N1 A. intros W1 W2 N1 A. cbn [snd] in W1. induction A as [|p q rl ne (E & H) A IH]; constructor.
      * split; [exact E|]. inversion W2 as [|? ? X1 X2]; subst. apply holds_set; [|exact H].
        intro Q. apply N1. cbn. left. lia.
      * apply IH; [now inversion W2|]. intro I. apply N1. now right.
  - destruct (IH W2 N2 R O) as (ne' & Ec & K). rewrite Ec. eexists. split; [reflexivity|]. constructor; [|exact K]. cbn. split; [reflexivity|].
    apply holds_set; [|exact H]. intro Q. apply N1.
    assert (Id : In d (map snd rl)).
    { clear - R. induction rl as [|(z & j) rl IH]; [discriminate R|]. cbn in *. destruct (String.eqb z x); [injection R as ->; now left|right; auto]. }
    apply in_map_iff in Id as Id'. destruct Id' as (p & Ep & Ip). rewrite Forall_forall in W2. specialize (W2 p Ip). cbn [snd] in *.
    replace k with d by lia. exact Id.
Qed.

Lemma cond_sim rl ts st ne D e e' k k' (R : out -> nout -> Prop) : prefix_of ts -> wf (length ts) rl -> agree rl st ne ->
  lex_e base fn ks sg (rl ++ rg) ts None None e = Some e' -> has_type V sg D e' TBool = true ->
  (forall b, rel R (k b) (k' b)) -> rel R (cond call st e' k) (ncond params konst ncall ne e k').
Proof.
  intros Pr W Ag L T K. unfold has_type in T. apply andb_prop in T as (_ & T). destruct (type_of V sg e') as [t|] eqn:Ty; [|discriminate T].
  apply ty_eqb_eq in T. subst t. unfold cond, ncond. eapply rel_bind; [exact (lex_sim_e rl ts st ne Pr W Ag e _ _ _ _ L Ty)|].
  intros v a (F & S). destruct S as [->|(z & -> & Lz & _)]; [|discriminate Lz]. unfold fits in F. destruct v; try discriminate F. apply K.
Qed.
Lemma typed_has D e t : has_type V sg D e t = true -> type_of V sg e = Some t.
Proof. unfold has_type. intro T. apply andb_prop in T as (_ & T). destruct (type_of V sg e); [|discriminate T]. apply ty_eqb_eq in T. now subst. Qed.
(** A call. *)
Lemma call_sim rl ts st ne : prefix_of ts -> wf (length ts) rl -> agree rl st ne ->
  forall f es h x e', lex_e base fn ks sg (rl ++ rg) ts h x (Syn.ECall (Syn.EId f) es) = Some e' ->
  exists d ps rt es', e' = Src.ECall d es' /\ is_assert f = false /\ nth_error sg d = Some (ps, rt) /\
  (types_of_args V sg es' ps = true ->
   rel (fun o w => o = w /\ fit_ret rt o) (rbind (evals call st es') (call d)) (called params ncall ne f (arguments (nev params konst ncall ne) es))).
Proof.
  intros Pr W Ag f es h x e' L. cbn [lex_e] in L. rewrite refers_app in L. pose proof (agree_var rl st ne f Ag) as Av.
  destruct (refers rl f) as [d|] eqn:Rf.
  { exfalso. pose proof (wf_refers _ _ _ _ W Rf) as Hd. assert (E : (d <? base) = false) by (apply Nat.ltb_ge; lia). rewrite E, orb_true_r in L. discriminate L. }
  destruct (refers rg f) as [d|] eqn:Rg; [|discriminate L]. destruct (is_assert f); [discriminate L|]. cbn [orb] in L. destruct (negb (d <? base)); [discriminate L|].
  destruct (fn d) as [k|] eqn:Fd; [|discriminate L]. destruct (nth_error sg k) as [(ps & rt)|] eqn:Es; [|discriminate L].
  match type of L with match ?x with Some _ => _ | None => _ end = _ => destruct x as [es'|] eqn:Ees in L; [|discriminate L] end.
  injection L as <-. exists k, ps, rt, es'. split; [reflexivity|]. split; [reflexivity|]. split; [exact Es|]. intro Ta.
  unfold called. rewrite Av, (Hparams _ _ _ _ _ Es Rg Fd).
  apply (rel_bind (fun vs ws => vs = ws /\ Forall2 fits ps vs)).
  - clear Es. revert ps es' Ees Ta. induction es as [|a es IH]; intros ps es' Ees Ta.
    + injection Ees as <-. destruct ps; [|discriminate Ta]. cbn. eexists. split; [reflexivity|]. auto.
    + destruct (lex_e base fn ks sg _ ts h (hd_error ps) a) as [a'|] eqn:Ea; [|discriminate Ees].
      match type of Ees with match ?x with Some _ => _ | None => _ end = _ => destruct x as [es2|] eqn:E2 in Ees; [|discriminate Ees] end.
      injection Ees as <-. destruct ps as [|p ps]; [discriminate Ta|]. cbn [types_of_args] in Ta.
      destruct (type_of V sg a') as [ta|] eqn:Tya; [|discriminate Ta]. apply andb_prop in Ta as (Q & Ta). apply ty_eqb_eq in Q. subst ta.
      change (evals call st (ECons a' es2)) with (rbind (eval call st a') (fun v => rbind (evals call st es2) (fun vs => ROk (v :: vs)))).
      cbn [arguments hd tl hd_error] in *. fold (arguments (nev params konst ncall ne)).
      apply (rel_bind (fun v w => v = w /\ fits p v)).
      * pose proof (lex_sim_e rl ts st ne Pr W Ag a _ _ _ _ Ea Tya) as R. destruct (eval call st a') as [v| | |]; cbn [rel] in R; try (rewrite R; reflexivity).
        destruct R as (w & -> & Fv & Sv). cbn [rbind]. rewrite (stands_at _ _ _ _ Sv). cbn [rel]. exists v. auto.
      * intros v w (<- & Fv). apply (rel_bind (fun vs ws => vs = ws /\ Forall2 fits ps vs)); [exact (IH _ _ E2 Ta)|].
        intros vs ws (<- & Fvs). cbn. eexists. split; [reflexivity|]. auto.
  - intros vs ws (<- & Fvs). destruct (Hcall _ _ _ _ _ _ Es Rg Fd Fvs) as (-> & Fr). destruct (call k vs) as [o| | |]; cbn; try reflexivity. eauto.
Qed.

(** After leaving a block. *)
Definition orel_in (rl : env) (o : out) (no : nout) : Prop :=
  match o, no with
  | ONext s, NNext ne | OBreak s, NBreak ne | OCont s, NCont ne => agree rl s ne
  | SrcSem.ORet v, NRet w => v = w /\ fit_ret ret v
  | _, _ => False
  end.
Lemma orel_in_orel rl o no : orel_in rl o no -> orel rl rl o no.
Proof. destruct o, no; cbn; auto; intro H; now exists []. Qed.
Lemma rel_left rl new x y ne : rel (orel rl (new ++ rl)) x y -> length ne = length rl -> rel (orel_in rl) x (leaving ne y).
Proof.
  intros H E. unfold leaving. destruct x as [o| | |]; cbn [rel] in *; [|rewrite H; reflexivity..]. destruct H as (w & -> & H). cbn [rbind].
  eexists. split; [reflexivity|]. destruct o, w; cbn in *; try contradiction.
  - exact (agree_drop _ _ _ _ _ H E).
  - destruct H as (? & H). exact (agree_drop _ _ _ _ _ H E).
  - destruct H as (? & H). exact (agree_drop _ _ _ _ _ H E).
  - exact H.
Qed.

Definition sim (n : nat) : Prop := forall s rl ts c rl' ts' D D' st ne,
  prefix_of ts' -> wf (length ts) rl -> agree rl st ne ->
  lex_s closedb base fn ks sg ret s (rl ++ rg, ts) = Some (c, (rl' ++ rg, ts')) -> typed V sg ret D c = Some D' ->
  rel (orel rl rl') (sexec call n st c) (nexec params konst ncall ret n ne s).
Definition sim_for (n : nat) : Prop := forall e sp b rl ts e' sp' b' rb rs ts2 ts3 D D1 D2 st ne,
  prefix_of ts3 -> wf (length ts) rl -> agree rl st ne ->
  lex_e base fn ks sg (rl ++ rg) ts None None e = Some e' ->
  lex_s closedb base fn ks sg ret b (rl ++ rg, ts) = Some (b', (rb, ts2)) ->
  lex_s closedb base fn ks sg ret sp (rl ++ rg, ts2) = Some (sp', (rs, ts3)) ->
  has_type V sg D e' TBool = true -> typed V sg ret D b' = Some D1 -> typed V sg ret D sp' = Some D2 ->
  rel (orel rl rl) (sfor call n st e' sp' b') (nfor params konst ncall ret n ne e sp b).

(** A body that is left. *)
Lemma body_sim n s rl ts c r' ts' D D' st ne : sim n ->
  prefix_of ts' -> wf (length ts) rl -> agree rl st ne ->
  lex_s closedb base fn ks sg ret s (rl ++ rg, ts) = Some (c, (r', ts')) -> typed V sg ret D c = Some D' ->
  rel (orel_in rl) (sexec call n st c) (leaving ne (nexec params konst ncall ret n ne s)).
Proof.
  intros H Pr W Ag L T. destruct (lex_static s _ _ _ _ _ W L) as (rl' & new & more & -> & -> & _).
  apply (rel_left rl new); [|exact (agree_length _ _ _ Ag)]. exact (H _ _ _ _ _ _ _ _ _ _ Pr W Ag L T).
Qed.

Lemma sim_for_step n : sim n -> sim_for n -> sim_for (S n).
Proof.
  intros Hs Hf e sp b rl ts e' sp' b' rb rs ts2 ts3 D D1 D2 st ne Pr W Ag Le Lb Ls Te Tb Ts.
  destruct (lex_static b _ _ _ _ _ W Lb) as (_ & _ & more2 & _ & _ & _ & ->).
  pose proof (wf_len _ more2 _ W) as W2. destruct (lex_static sp _ _ _ _ _ W2 Ls) as (_ & _ & more3 & _ & _ & _ & ->).
  pose proof (prefix_app _ _ Pr) as Pr2. pose proof (prefix_app _ _ Pr2) as Pr1.
  rewrite sfor_eq.
  change (nfor params konst ncall ret (S n) ne e sp b) with (ncond params konst ncall ne e (fun v =>
      if v then rbind (leaving ne (nexec params konst ncall ret n ne b)) (fun o =>
                match o with
                | NNext r' | NCont r' =>
                  rbind (leaving ne (nexec params konst ncall ret n r' sp)) (fun o' =>
                    match o' with NNext r'' => nfor params konst ncall ret n r'' e sp b | _ => RStuck end)
                | NBreak r' => ROk (NNext r')
                | NRet v => ROk (NRet v)
                end)
      else ROk (NNext ne))).
  apply (cond_sim rl ts st ne D); try assumption. intros [|]; [|cbn; eauto].
  eapply rel_bind; [exact (body_sim n b rl ts _ _ _ _ _ st ne Hs Pr2 W Ag Lb Tb)|].
  assert (K : forall s r, agree rl s r -> rel (orel rl rl)
      (rbind (sexec call n s sp') (fun o' => match o' with ONext s'' => sfor call n s'' e' sp' b' | _ => RStuck end))
      (rbind (leaving ne (nexec params konst ncall ret n r sp)) (fun o' => match o' with NNext r'' => nfor params konst ncall ret n r'' e sp b | _ => RStuck end))).
  { intros s r A. eapply rel_bind.
    - replace (leaving ne (nexec params konst ncall ret n r sp)) with (leaving r (nexec params konst ncall ret n r sp)).
      + exact (body_sim n sp rl _ _ _ _ _ _ s r Hs Pr W2 A Ls Ts).
      + unfold leaving. destruct (nexec params konst ncall ret n r sp) as [o| | |]; try reflexivity. cbn. f_equal.
        assert (Q : length r = length ne) by (rewrite (agree_length _ _ _ A), (agree_length _ _ _ Ag); reflexivity).
        destruct o; cbn; unfold drop_to; rewrite ?Q; reflexivity.
    - intros o no R. destruct o, no; cbn in R; try contradiction; try reflexivity.
      exact (Hf _ _ _ _ _ _ _ _ _ _ _ _ _ _ _ _ _ Pr W R Le Lb Ls Te Tb Ts). }
  intros o no R. destruct o, no; cbn in R; try contradiction.
  - exact (K _ _ R).
  - cbn. eauto.
  - exact (K _ _ R).
  - cbn. eauto.
Qed.

Lemma sim_step n : sim n -> sim_for n -> sim (S n).
Proof.
  intros Hs Hf s rl ts c rl' ts' D D' st ne Pr W Ag L T. pose proof L as L0.
  destruct s as [p t e|cn|l e|o|c0 a b|e|l|b|c0 b|i c0 sp b| |]; cbn [lex_s] in L; try discriminate L.
  - (* let *)
    destruct p as [x|]; [|discriminate L]. destruct (match t with None => Some None | Some t0 => _ end) as [t'|] eqn:Et; [|discriminate L].
    destruct (lex_e _ _ _ _ _ _ _ _ e) as [e'|] eqn:Le in L; [|discriminate L]. destruct (match t' with Some _ => _ | None => _ end) as [vt|] eqn:Ev; [|discriminate L].
    injection L as <- Er <-. change ((x, base + length ts) :: rl ++ rg) with (((x, base + length ts) :: rl) ++ rg) in Er. apply app_inv_tail in Er. subst rl'.
    cbn [typed] in T. destruct (has_type V sg D e' (V (length ts))) eqn:Ht; [|discriminate T]. apply typed_has in Ht.
    change (sexec call (S n) st (Src.SLet (length ts) e')) with (rbind (eval call st e') (fun v => ROk (ONext (set st (length ts) v)))).
    change (nexec params konst ncall ret (S n) ne (Syn.SLet (PId x) t e)) with
      (match declared_type t with
       | Some t => rbind (rbind (nev params konst ncall ne e) (at_type t)) (fun v => ROk (NNext ((x, NVar v) :: ne)))
       | None => RStuck
       end).
    assert (Vt : V (length ts) = vt).
    { destruct Pr as (more & Q). unfold V. rewrite Q. unfold var_types. rewrite <- app_assoc, app_nth2, Nat.sub_diag by lia. reflexivity. }
    assert (Nt : nth_error TS (length ts) = Some (vt, None)).
    { apply (prefix_nth _ _ _ Pr). rewrite nth_error_app2, Nat.sub_diag by lia. reflexivity. }
    pose proof (prefix_app _ _ Pr) as Pr1. pose proof (lex_sim_e rl ts st ne Pr1 W Ag e _ _ _ _ Le Ht) as R.
    destruct t as [t|].
    + cbn [declared_type]. change (type_named t) with (scalar_ty t). destruct (scalar_ty t) as [t0|]; [|discriminate Et]. injection Et as <-. injection Ev as <-.
      rewrite Vt in R. apply (rel_bind (fun v w => v = w /\ fits t0 v)).
      * destruct (eval call st e') as [v| | |]; cbn [rel] in R; try (rewrite R; reflexivity). destruct R as (w & -> & F & Sv). cbn [rbind]. rewrite (stands_at _ _ _ _ Sv). cbn. eauto.
      * intros v w (<- & F). cbn. eexists. split; [reflexivity|]. cbn. eapply agree_let; [exact Nt|exact W|exact Ag|now rewrite Vt].
    + injection Et as <-. cbn [declared_type]. apply (rel_bind (fun v w => v = w /\ fits (V (length ts)) v)).
      * destruct (eval call st e') as [v| | |]; cbn [rel] in R; try (rewrite R; reflexivity). destruct R as (w & -> & F & Sv). cbn [rbind]. rewrite (stands_felt _ _ _ Sv). cbn. eauto.
      * intros v w (<- & F). cbn. eexists. split; [reflexivity|]. cbn. eapply agree_let; [exact Nt|assumption..].
  - (* const *)
    destruct (match c_ty cn with None => Some None | Some t0 => _ end) as [t'|] eqn:Et; [|discriminate L].
    destruct (lex_e _ _ _ _ _ _ _ _ (c_val cn)) as [e'|] eqn:Le in L; [|discriminate L]. destruct (type_of (var_types ts) sg e') as [vt|] eqn:Ev; [|discriminate L].
    destruct (_ && _) eqn:C in L; [|discriminate L]. apply andb_prop in C as (Q & C).
    injection L as <- Er <-. change ((c_name cn, base + length ts) :: rl ++ rg) with (((c_name cn, base + length ts) :: rl) ++ rg) in Er. apply app_inv_tail in Er. subst rl'.
    change (sexec call (S n) st Src.SSkip) with (@ROk out (ONext st)).
    change (nexec params konst ncall ret (S n) ne (Syn.SConst cn)) with
      (match declared_type (c_ty cn) with
       | Some t => ROk (NNext ((c_name cn, NConst (rbind (nev params konst ncall ne (c_val cn)) (at_type t))) :: ne))
       | None => RStuck
       end).
    assert (Nt : nth_error TS (length ts) = Some (vt, Some e')).
    { apply (prefix_nth _ _ _ Pr). rewrite nth_error_app2, Nat.sub_diag by lia. reflexivity. }
    assert (Ty : forall V, type_of V sg e' = Some vt) by (intro V0; rewrite <- Ev; apply (proj1 (closed_same sg) e' C)).
    pose proof (prefix_app _ _ Pr) as Pr1. pose proof (lex_sim_e rl ts st ne Pr1 W Ag (c_val cn) _ _ _ _ Le (Ty V)) as R.
    assert (At : exists t0, declared_type (c_ty cn) = Some t0 /\ rbind (nev params konst ncall ne (c_val cn)) (at_type t0) = eval call st e' /\ forall v, eval call st e' = ROk v -> fits vt v).
    { destruct (c_ty cn) as [ta|]; cbn [declared_type].
      - change (type_named ta) with (scalar_ty ta). destruct (scalar_ty ta) as [t0|]; [|discriminate Et]. injection Et as <-. apply ty_eqb_eq in Q. subst t0.
        exists vt. split; [reflexivity|]. destruct (eval call st e') as [v| | |]; cbn [rel] in R; [|rewrite R; split; [reflexivity|discriminate]..].
        destruct R as (w & -> & Fv & Sv). cbn [rbind]. split; [exact (stands_at _ _ _ _ Sv)|]. intros v' E. injection E as <-. exact Fv.
      - injection Et as <-. exists TFelt. split; [reflexivity|]. destruct (eval call st e') as [v| | |]; cbn [rel] in R; [|rewrite R; split; [reflexivity|discriminate]..].
        destruct R as (w & -> & Fv & Sv). cbn [rbind]. split; [exact (stands_felt _ _ _ Sv)|]. intros v' E. injection E as <-. exact Fv. }
    destruct At as (t0 & -> & -> & Fa). cbn [rel]. eexists. split; [reflexivity|]. cbn [orel].
    apply (agree_const _ _ _ _ _ _ vt e' Nt Ty); [|exact Ag]. intro st'. split; [apply (proj1 (closed_same sg) e' C)|exact Fa].
  - (* assign *)
    destruct l as [| |x| | | | | | | | | | | | |]; try discriminate L. rewrite refers_app in L. pose proof (agree_var rl st ne x Ag) as Av.
    destruct (refers rl x) as [d|] eqn:Rx.
    2:{ exfalso. destruct (refers rg x) as [d|] eqn:Eg; [|discriminate L]. apply Hrg in Eg. apply Nat.ltb_lt in Eg. rewrite Eg in L. discriminate L. }
    destruct (d <? base); [discriminate L|]. destruct (nth_error ts (d - base)) as [(t & [k|])|] eqn:En; try discriminate L. apply (prefix_nth ts) in En; [|destruct (lex_e _ _ _ _ _ _ _ _ e) in L; [injection L as _ _ <-; exact Pr|discriminate L]].
    destruct (lex_e _ _ _ _ _ _ _ _ e) as [e'|] eqn:Le in L; [|discriminate L]. injection L as <- Er <-. apply app_inv_tail in Er. subst rl'.
    cbn [typed] in T. destruct (mem_nat _ _ && has_type V sg D e' (V (d - base))) eqn:Ht; [|discriminate T]. apply andb_prop in Ht as (_ & Ht). apply typed_has in Ht.
    change (sexec call (S n) st (Src.SAssign (d - base) e')) with (rbind (eval call st e') (fun v => ROk (ONext (set st (d - base) v)))).
    change (nexec params konst ncall ret (S n) ne (Syn.SAssign (Syn.EId x) e)) with
      (rbind (nev params konst ncall ne e) (fun a =>
        match value_of ne x with
        | Some (NVar old) => match change ne x (like old a) with Some r' => ROk (NNext r') | None => RStuck end
        | _ => RStuck
        end)).
    eapply rel_bind; [exact (lex_sim_e rl ts st ne Pr W Ag e _ _ _ _ Le Ht)|]. intros v a (F & Sv).
    destruct Av as ([old|k] & Eo & So); [|destruct So as (t0 & k0 & Q & _); rewrite En in Q; discriminate Q]. destruct So as (So & _). rewrite Eo. pose proof (proj2 Ag _ _ So) as Fo. rewrite (stands_like _ _ _ _ _ Fo Sv).
    destruct (agree_assign _ _ _ _ _ _ _ _ W Ag Rx F Eo) as (ne' & -> & A'). cbn. eauto.
  - (* return *)
    destruct o as [e|].
    + destruct (lex_e _ _ _ _ _ _ _ _ e) as [e'|] eqn:Le in L; [|discriminate L]. injection L as <- Er <-. apply app_inv_tail in Er. subst rl'.
      cbn [typed] in T. destruct ret as [t|] eqn:Rt; [|discriminate T]. destruct (has_type V sg D e' t) eqn:Ht; [|discriminate T]. apply typed_has in Ht.
      change (sexec call (S n) st (Src.SReturn (Some e'))) with (rbind (eval call st e') (fun v => ROk (SrcSem.ORet (Some v)))).
      change (nexec params konst ncall (Some t) (S n) ne (Syn.SReturn (Some e))) with (rbind (rbind (nev params konst ncall ne e) (at_type t)) (fun v => ROk (NRet (Some v)))).
      pose proof (lex_sim_e rl ts st ne Pr W Ag e _ _ _ _ Le Ht) as R. apply (rel_bind (fun v w => v = w /\ fits t v)).
      * destruct (eval call st e') as [v| | |]; cbn [rel] in R; try (rewrite R; reflexivity). destruct R as (w & -> & F & Sv). cbn [rbind]. rewrite (stands_at _ _ _ _ Sv). cbn. eauto.
      * intros v w (<- & F). cbn. eexists. split; [reflexivity|]. cbn. rewrite Rt. auto.
    + injection L as <- Er <-. cbn [typed] in T. destruct ret eqn:Rt; [discriminate T|]. cbn. eexists. split; [reflexivity|]. cbn. rewrite Rt. split; [reflexivity|exact I].
  - (* if *)
    destruct (lex_e _ _ _ _ _ _ _ _ c0) as [c'|] eqn:Lc in L; [|discriminate L]. destruct (lex_s _ _ _ _ _ _ a _) as [(a' & (r1 & ts1))|] eqn:La in L; [|discriminate L].
    destruct (lex_static a _ _ _ _ _ W La) as (_ & _ & more & _ & _ & _ & ->). pose proof (wf_len ts more rl W) as W1.
    destruct b as [b|].
    + destruct (lex_s _ _ _ _ _ _ b _) as [(b' & (r2 & ts2))|] eqn:Lb in L; [|discriminate L]. injection L as <- Er <-. apply app_inv_tail in Er. subst rl'.
      destruct (lex_static b _ _ _ _ _ W1 Lb) as (_ & _ & more2 & _ & _ & _ & ->). pose proof (prefix_app _ _ Pr) as Pr1. pose proof (prefix_app _ _ Pr1) as Pr0.
      cbn [typed] in T. destruct (has_type V sg D c' TBool) eqn:Tc; [|discriminate T]. destruct (typed V sg ret D a') as [D1|] eqn:Ta; [|discriminate T].
      destruct (typed V sg ret D b') as [D2|] eqn:Tb; [|discriminate T].
      change (sexec call (S n) st (Src.SIf c' a' b')) with (cond call st c' (fun v => sexec call n st (if v then a' else b'))).
      change (nexec params konst ncall ret (S n) ne (Syn.SIf c0 a (Some b))) with (leaving ne (ncond params konst ncall ne c0 (fun v => nexec params konst ncall ret n ne (if v then a else b)))).
      replace (leaving ne (ncond params konst ncall ne c0 (fun v => nexec params konst ncall ret n ne (if v then a else b))))
        with (ncond params konst ncall ne c0 (fun v => leaving ne (nexec params konst ncall ret n ne (if v then a else b)))).
      2:{ unfold ncond, leaving. destruct (nev params konst ncall ne c0) as [[|[]]| | |]; reflexivity. }
      apply (cond_sim rl ts st ne D); try assumption. intros [|].
      * eapply rel_impl; [exact (body_sim n a rl ts _ _ _ _ _ st ne Hs Pr1 W Ag La Ta)|]. intros; now apply orel_in_orel.
      * eapply rel_impl; [exact (body_sim n b rl _ _ _ _ _ _ st ne Hs Pr W1 Ag Lb Tb)|]. intros; now apply orel_in_orel.
    + injection L as <- Er <-. apply app_inv_tail in Er. subst rl'. pose proof (prefix_app _ _ Pr) as Pr0.
      cbn [typed] in T. destruct (has_type V sg D c' TBool) eqn:Tc; [|discriminate T]. destruct (typed V sg ret D a') as [D1|] eqn:Ta; [|discriminate T].
      change (sexec call (S n) st (Src.SIf1 c' a')) with (cond call st c' (fun v => if v then sexec call n st a' else ROk (ONext st))).
      change (nexec params konst ncall ret (S n) ne (Syn.SIf c0 a None)) with (leaving ne (ncond params konst ncall ne c0 (fun v => if v then nexec params konst ncall ret n ne a else ROk (NNext ne)))).
      replace (leaving ne (ncond params konst ncall ne c0 (fun v => if v then nexec params konst ncall ret n ne a else ROk (NNext ne))))
        with (ncond params konst ncall ne c0 (fun v => leaving ne (if v then nexec params konst ncall ret n ne a else ROk (NNext ne)))).
      2:{ unfold ncond, leaving. destruct (nev params konst ncall ne c0) as [[|[]]| | |]; reflexivity. }
      apply (cond_sim rl ts st ne D); try assumption. intros [|].
      * eapply rel_impl; [exact (body_sim n a rl ts _ _ _ _ _ st ne Hs Pr W Ag La Ta)|]. intros; now apply orel_in_orel.
      * cbn. eexists. split; [reflexivity|]. cbn. unfold drop_to. rewrite Nat.sub_diag. exact Ag.
  - (* expression *)
    destruct (assert_arg e) as [a|] eqn:As.
    + destruct e as [| | | | |f args| | | | | | | | | |]; try discriminate As. destruct f as [| |f| | | | | | | | | | | | |]; try discriminate As. destruct args as [|a0 [|? ?]]; try discriminate As.
      cbn in As. destruct (is_assert f) eqn:If; [|discriminate As]. injection As as ->.
      destruct (lex_e _ _ _ _ _ _ _ _ a) as [a'|] eqn:La in L; [|discriminate L]. injection L as <- Er <-. apply app_inv_tail in Er. subst rl'.
      cbn [typed] in T. destruct (has_type V sg D a' TBool) eqn:Ta; [|discriminate T].
      change (sexec call (S n) st (Src.SAssert a')) with (cond call st a' (fun b => if b then ROk (ONext st) else RTrap)).
      change (nexec params konst ncall ret (S n) ne (Syn.SExpr (Syn.ECall (Syn.EId f) [a]))) with
       (if is_assert f then ncond params konst ncall ne a (fun b => if b then ROk (NNext ne) else RTrap)
        else rbind (called params ncall ne f (arguments (nev params konst ncall ne) [a])) (fun _ => ROk (NNext ne))).
      rewrite If. apply (cond_sim rl ts st ne D); try assumption. intros [|]; cbn; eauto.
    + destruct (lex_e _ _ _ _ _ _ _ _ e) as [e'|] eqn:Le in L; [|discriminate L]. injection L as <- Er <-. apply app_inv_tail in Er. subst rl'.
      assert (G : forall t, typed V sg ret D (Src.SExpr e') = Some t -> rel (orel rl rl) (sexec call (S n) st (Src.SExpr e')) (rbind (nev params konst ncall ne e) (fun _ => ROk (NNext ne)))).
      { intros t T1. cbn [typed] in T1. destruct (type_of V sg e') as [ty|] eqn:Ty; [|discriminate T1].
        change (sexec call (S n) st (Src.SExpr e')) with (rbind (eval call st e') (fun _ => ROk (ONext st))).
        eapply rel_bind; [exact (lex_sim_e rl ts st ne Pr W Ag e _ _ _ _ Le Ty)|]. intros v w _. cbn. eauto. }
      destruct e as [| | | | |f args| | | | | | | | | |]; try exact (G _ T).
      destruct f as [| |f| | | | | | | | | | | | |]; try discriminate Le.
      destruct (call_sim rl ts st ne Pr W Ag f args _ _ _ Le) as (d & ps & rt & es & -> & If & Es & K).
      change (nexec params konst ncall ret (S n) ne (Syn.SExpr (Syn.ECall (Syn.EId f) args))) with
       (if is_assert f then match args with [e] => ncond params konst ncall ne e (fun b => if b then ROk (NNext ne) else RTrap) | _ => RStuck end
        else rbind (called params ncall ne f (arguments (nev params konst ncall ne) args)) (fun _ => ROk (NNext ne))).
      rewrite If. cbn [expr_stmt] in *. rewrite Es in *. destruct rt as [rt|]; cbn [typed] in T.
      * cbn [type_of] in T. rewrite Es in T. destruct (types_of_args V sg es ps) eqn:Ta; [|discriminate T]. specialize (K eq_refl).
        change (sexec call (S n) st (Src.SExpr (Src.ECall d es))) with (rbind (rbind (evals call st es) (fun vs => rbind (call d vs) of_opt)) (fun _ => ROk (ONext st))).
        destruct (evals call st es) as [vs| | |]; cbn [rbind rel] in *; [|rewrite K; reflexivity..].
        destruct (call d vs) as [o| | |]; cbn [rbind rel] in *; [|rewrite K; reflexivity..]. destruct K as (w & -> & <- & Fr). destruct o as [v|]; [|destruct Fr].
        cbn. eauto.
      * rewrite Es in T. destruct (scoped_args D es && types_of_args V sg es ps) eqn:Ta; [|discriminate T]. apply andb_prop in Ta as (_ & Ta). specialize (K Ta).
        change (sexec call (S n) st (Src.SCall d es)) with (rbind (evals call st es) (fun vs => rbind (call d vs) (fun _ => ROk (ONext st)))).
        destruct (evals call st es) as [vs| | |]; cbn [rbind rel] in *; [|rewrite K; reflexivity..].
        destruct (call d vs) as [o| | |]; cbn [rbind rel] in *; [|rewrite K; reflexivity..]. destruct K as (w & -> & <- & Fr). cbn. eauto.
  - (* block *)
    unfold within in L. destruct (lblock_of _ l _) as [(c1 & (r1 & ts1))|] eqn:Lb in L; [|discriminate L]. injection L as <- Er <-. apply app_inv_tail in Er. subst rl'.
    destruct l as [|a l]; cbn [lblock_of] in Lb.
    + injection Lb as <- <- <-. cbn. eauto.
    + destruct (lex_s closedb base fn ks sg ret a (rl ++ rg, ts)) as [(a' & (r2 & ts2))|] eqn:La; [|discriminate Lb].
      destruct (lex_static a _ _ _ _ _ W La) as (rl2 & new & more & -> & -> & W2 & ->).
      fold (lblock_of (fun s st => lex_s closedb base fn ks sg ret s st)) in Lb.
      destruct (lblock_of _ l _) as [(c2 & (r3 & ts3))|] eqn:Ll in Lb; [|discriminate Lb]. injection Lb as <- <- <-.
      assert (Ls : lex_s closedb base fn ks sg ret (Syn.SBlock l) ((new ++ rl) ++ rg, ts ++ more) = Some (c2, ((new ++ rl) ++ rg, ts3))).
      { exact (f_equal (within ((new ++ rl) ++ rg)) Ll). }
      destruct (lex_static (Syn.SBlock l) _ _ _ _ _ W2 Ls) as (_ & _ & more3 & _ & _ & _ & ->). pose proof (prefix_app _ _ Pr) as Pr2.
      cbn [typed] in T. destruct (typed V sg ret D a') as [D1|] eqn:Ta; [|discriminate T].
      change (sexec call (S n) st (Src.SSeq a' c2)) with (rbind (sexec call n st a') (fun o => match o with ONext s' => sexec call n s' c2 | _ => ROk o end)).
      change (nexec params konst ncall ret (S n) ne (Syn.SBlock (a :: l))) with
        (leaving ne (rbind (nexec params konst ncall ret n ne a) (fun o => match o with NNext r' => nexec params konst ncall ret n r' (Syn.SBlock l) | _ => ROk o end))).
      apply (rel_leaving rl new); [|exact (agree_length _ _ _ Ag)].
      eapply rel_bind; [exact (Hs _ _ _ _ _ _ _ _ _ _ Pr2 W Ag La Ta)|].
      intros o no R. destruct o, no; cbn in R; try contradiction.
      * eapply rel_impl; [exact (Hs _ _ _ _ _ _ _ _ _ _ Pr W2 R Ls T)|]. intros v w. apply orel_outer.
      * cbn. eauto.
      * cbn. eauto.
      * cbn. eauto.
  - (* loop *)
    destruct (lex_s _ _ _ _ _ _ b _) as [(b' & (r1 & ts1))|] eqn:Lb in L; [|discriminate L]. injection L as <- Er <-. apply app_inv_tail in Er. subst rl'.
    pose proof T as T0. cbn [typed] in T. destruct (typed V sg ret D b') as [D1|] eqn:Tb; [|discriminate T].
    change (sexec call (S n) st (Src.SLoop b')) with (rbind (sexec call n st b') (fun o =>
        match o with
        | ONext s' | OCont s' => sexec call n s' (Src.SLoop b')
        | OBreak s' => ROk (ONext s')
        | SrcSem.ORet v => ROk (SrcSem.ORet v)
        end)).
    change (nexec params konst ncall ret (S n) ne (Syn.SLoop b)) with (rbind (leaving ne (nexec params konst ncall ret n ne b)) (fun o =>
        match o with
        | NNext r' | NCont r' => nexec params konst ncall ret n r' (Syn.SLoop b)
        | NBreak r' => ROk (NNext r')
        | NRet v => ROk (NRet v)
        end)).
    eapply rel_bind; [exact (body_sim n b rl ts _ _ _ _ _ st ne Hs Pr W Ag Lb Tb)|].
    intros o no R. destruct o, no; cbn in R; try contradiction.
    + exact (Hs _ _ _ _ _ _ _ _ _ _ Pr W R L0 T0).
    + cbn. eauto.
    + exact (Hs _ _ _ _ _ _ _ _ _ _ Pr W R L0 T0).
    + cbn. eauto.
  - (* while *)
    destruct (lex_e _ _ _ _ _ _ _ _ c0) as [c'|] eqn:Lc in L; [|discriminate L].
    destruct (lex_s _ _ _ _ _ _ b _) as [(b' & (r1 & ts1))|] eqn:Lb in L; [|discriminate L]. injection L as <- Er <-. apply app_inv_tail in Er. subst rl'.
    destruct (lex_static b _ _ _ _ _ W Lb) as (_ & _ & more & _ & _ & _ & ->). pose proof (prefix_app _ _ Pr) as Pr0.
    pose proof T as T0. cbn [typed] in T. destruct (has_type V sg D c' TBool) eqn:Tc; [|discriminate T]. destruct (typed V sg ret D b') as [D1|] eqn:Tb; [|discriminate T].
    change (sexec call (S n) st (Src.SWhile c' b')) with (cond call st c' (fun v =>
        if v then rbind (sexec call n st b') (fun o =>
                  match o with
                  | ONext s' | OCont s' => sexec call n s' (Src.SWhile c' b')
                  | OBreak s' => ROk (ONext s')
                  | SrcSem.ORet v => ROk (SrcSem.ORet v)
                  end)
        else ROk (ONext st))).
    change (nexec params konst ncall ret (S n) ne (Syn.SWhile c0 b)) with (ncond params konst ncall ne c0 (fun v =>
        if v then rbind (leaving ne (nexec params konst ncall ret n ne b)) (fun o =>
                  match o with
                  | NNext r' | NCont r' => nexec params konst ncall ret n r' (Syn.SWhile c0 b)
                  | NBreak r' => ROk (NNext r')
                  | NRet v => ROk (NRet v)
                  end)
        else ROk (NNext ne))).
    apply (cond_sim rl ts st ne D); try assumption. intros [|]; [|cbn; eauto].
    eapply rel_bind; [exact (body_sim n b rl ts _ _ _ _ _ st ne Hs Pr W Ag Lb Tb)|].
    intros o no R. destruct o, no; cbn in R; try contradiction.
    + exact (Hs _ _ _ _ _ _ _ _ _ _ Pr W R L0 T0).
    + cbn. eauto.
    + exact (Hs _ _ _ _ _ _ _ _ _ _ Pr W R L0 T0).
    + cbn. eauto.
  - (* for *)
    destruct (is_block b); cbn [negb] in L; [|discriminate L]. destruct (lex_s _ _ _ _ _ _ i _) as [(i' & (r1 & ts1))|] eqn:Li in L; [|discriminate L].
    destruct (lex_static i _ _ _ _ _ W Li) as (rl1 & new & more & -> & -> & W1 & ->).
    destruct (lex_e _ _ _ _ _ _ _ _ c0) as [c'|] eqn:Lc in L; [|discriminate L]. destruct (lex_s _ _ _ _ _ _ b _) as [(b' & (r2 & ts2))|] eqn:Lb in L; [|discriminate L].
    destruct (lex_s _ _ _ _ _ _ sp _) as [(s' & (r3 & ts3))|] eqn:Ls in L; [|discriminate L]. injection L as <- Er <-. apply app_inv_tail in Er. subst rl'.
    destruct (lex_static b _ _ _ _ _ W1 Lb) as (_ & _ & more2 & _ & _ & _ & Q2). assert (W2 : wf (length ts2) (new ++ rl)) by (rewrite Q2; now apply wf_len).
    destruct (lex_static sp _ _ _ _ _ W2 Ls) as (_ & _ & more3 & _ & _ & _ & Q3).
    assert (Pr1 : prefix_of (ts ++ more)) by (rewrite Q3, Q2 in Pr; exact (prefix_app _ _ (prefix_app _ _ Pr))).
    cbn [typed] in T. destruct (typed V sg ret D i') as [D0|] eqn:Ti; [|discriminate T]. destruct (has_type V sg D0 c' TBool) eqn:Tc; [|discriminate T].
    destruct (typed V sg ret D0 s') as [D2|] eqn:Ts; [|discriminate T]. destruct (typed V sg ret D0 b') as [D1|] eqn:Tb; [|discriminate T].
    change (nexec params konst ncall ret (S n) ne (Syn.SFor i c0 sp b)) with
      (leaving ne (rbind (nexec params konst ncall ret n ne i) (fun o => match o with NNext r' => nfor params konst ncall ret n r' c0 sp b | _ => RStuck end))).
    change (sexec call (S n) st (Src.SFor i' c' s' b')) with (rbind (sexec call n st i') (fun o => match o with ONext x => sfor call n x c' s' b' | _ => RStuck end)).
    apply (rel_leaving rl new); [|exact (agree_length _ _ _ Ag)].
    eapply rel_bind; [exact (Hs _ _ _ _ _ _ _ _ _ _ Pr1 W Ag Li Ti)|].
    intros o no R. destruct o, no; cbn in R; try contradiction; try reflexivity.
    eapply rel_impl; [exact (Hf _ _ _ _ _ _ _ _ _ _ _ _ _ _ _ _ _ Pr W1 R Lc Lb Ls Tc Tb Ts)|]. intros v w. apply orel_outer.
  - injection L as <- Er <-. cbn. eexists. split; [reflexivity|]. cbn. now exists [].
  - injection L as <- Er <-. cbn. eexists. split; [reflexivity|]. cbn. now exists [].
Qed.
Lemma lex_sim n : sim n /\ sim_for n.
Proof.
  induction n as [|n (IH1 & IH2)].
  - split; repeat intro; reflexivity.
  - split; [now apply sim_step|now apply sim_for_step].
Qed.
End Sim.
