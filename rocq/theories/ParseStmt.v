(** Reading back types, statements and items. *)
From Coq Require Import NArith Bool Ascii String List Lia PeanoNat.
From Verif Require Import Lex Syn SynSpec Parse ParseComb ParseFacts.
Import ListNotations.
Open Scope bool_scope.
Open Scope list_scope.

(** ** Types *)
Lemma size_rt n r : numok n = true -> size_p (TNum n None :: K KRBrack :: r) = POk n (K KRBrack :: r).
Proof.
  intro H. unfold size_p. rewrite (bind_eq _ _ _ (ELit n None) (K KRBrack :: r)); [reflexivity|].
  apply (expr_rt (ELit n None)); try reflexivity.
  - cbn. rewrite H. reflexivity.
  - intros _. reflexivity.
Qed.
Lemma ty_n_rt n : forall t rest, thgt t < n -> wfty t = true -> prt t = true ->
  nostar rest = true -> ty_n n (pty t ++ rest) = POk t rest.
Proof.
  induction n as [|n IH]; intros t rest Hh W Pr Hr; [lia|]. cbn [ty_n]. unfold ty_f.
  rewrite (stars_rt _ (ty_n n) (fun t => thgt t < S n /\ wfty t = true /\ prt t = true)); auto.
  - apply loop_stop, nostar_ok, Hr.
  - apply shr_ty_n.
  - intros r (H & _). cbn in H. destruct n; [lia | reflexivity].
  - intros t' k r (H1 & H2 & H3). cbn in H1, H2, H3. apply andb_prop in H2 as [H2 H4].
    cbn [pty app]. rewrite <- app_assoc. cbn [app]. rewrite orelse_r by reflexivity. apply orelse_l.
    unfold arr_ty. rewrite bind_just, (bind_eq _ _ _ t' (K KSemi :: TNum k None :: K KRBrack :: r)).
    + rewrite bind_just, (bind_eq _ _ _ k (K KRBrack :: r)) by (apply size_rt, H4). rewrite bind_just. reflexivity.
    + apply IH; auto. lia.
  - intros ts x r (H1 & H2 & H3) Hx Hx'. cbn in H1, H2, H3. apply andb_prop in H3 as [_ H3].
    apply IH; eauto using forallb_in. pose proof (maxl_in thgt ts x Hx). lia.
Qed.
Lemma ty_rt t rest : wfty t = true -> prt t = true -> nostar rest = true -> ty_p (pty t ++ rest) = POk t rest.
Proof. intros. unfold ty_p, fueled. apply ty_n_rt; auto. pose proof (thgt_len t). rewrite app_length. lia. Qed.
Definition pann (t : option ty) : list token := match t with Some t => K KColon :: pty t | None => [] end.
Lemma ann_rt t rest : all_opt wfty t = true -> all_opt prt t = true ->
  ann_p (pann t ++ K KEq :: rest) = POk t (K KEq :: rest).
Proof.
  destruct t as [t|]; cbn [all_opt pann]; intros; [|reflexivity]. apply opt_some. cbn [app].
  rewrite bind_just. apply ty_rt; auto.
Qed.

(** ** Patterns *)
Section PatInd.
Variable Q : pat -> Prop.
Hypothesis HId : forall x, Q (PId x).
Hypothesis HTup : forall ps, Forall Q ps -> Q (PTuple ps).
Fixpoint pat_ind2 (p : pat) : Q p :=
  match p with
  | PId x => HId x
  | PTuple ps => HTup ps
      ((fix go l := match l return Forall Q l with [] => Forall_nil _ | x :: r => Forall_cons _ (pat_ind2 x) (go r) end) ps)
  end.
End PatInd.
Fixpoint ppat (p : pat) : list token :=
  match p with PId x => [TId x] | PTuple ps => K KLParen :: psep KComma (map ppat ps) ++ [K KRParen] end.
Fixpoint wfp (p : pat) : bool :=
  match p with PId x => idok x | PTuple ps => Nat.leb 2 (length ps) && forallb wfp ps end.
Fixpoint phgt (p : pat) : nat := match p with PId _ => 0 | PTuple ps => S (maxl phgt ps) end.
Lemma phgt_len p : phgt p <= length (ppat p).
Proof.
  induction p as [x | ps IH] using pat_ind2; cbn [phgt ppat length]; [lia|].
  rewrite app_length. cbn. enough (maxl phgt ps <= length (psep KComma (map ppat ps))) by lia.
  apply maxl_le. intros x Hx. rewrite Forall_forall in IH. specialize (IH x Hx).
  pose proof (psep_len KComma ppat ps x Hx). lia.
Qed.
Lemma pat_n_rt n : forall p rest, phgt p < n -> wfp p = true -> pat_n n (ppat p ++ rest) = POk p rest.
Proof.
  induction n as [|n IH]; intros p rest Hh W; [lia|]. cbn [pat_n]. unfold pat_f. destruct p as [x | ps].
  - reflexivity.
  - apply orelse_l. cbn [ppat app]. rewrite <- app_assoc. cbn [app].
    cbn in W, Hh. apply andb_prop in W as [W1 W2].
    rewrite (bind_eq _ _ _ ps rest); [reflexivity|]. apply delim_ok.
    rewrite (bind_eq _ _ _ ps (K KRParen :: rest)).
    + destruct ps as [|a [|b l]]; try discriminate. reflexivity.
    + apply sep_ok; [apply shr_pat_n | left; reflexivity | intros ->; discriminate |].
      intros x Hx r _. apply IH; eauto using forallb_in. pose proof (maxl_in phgt ps x Hx). lia.
Qed.
Lemma pat_rt p rest : wfp p = true -> pat_p (ppat p ++ rest) = POk p rest.
Proof. intros. unfold pat_p, fueled. apply pat_n_rt; auto. pose proof (phgt_len p). rewrite app_length. lia. Qed.

(** ** Statements *)
Section StmtInd.
Variable Q : stmt -> Prop.
Hypothesis HLet : forall p t e, Q (SLet p t e).
Hypothesis HConst : forall c, Q (SConst c).
Hypothesis HAssign : forall l r, Q (SAssign l r).
Hypothesis HReturn : forall o, Q (SReturn o).
Hypothesis HIf1 : forall c a, Q a -> Q (SIf c a None).
Hypothesis HIf2 : forall c a b, Q a -> Q b -> Q (SIf c a (Some b)).
Hypothesis HExpr : forall e, Q (SExpr e).
Hypothesis HBlock : forall l, Forall Q l -> Q (SBlock l).
Hypothesis HLoop : forall b, Q b -> Q (SLoop b).
Hypothesis HWhile : forall c b, Q b -> Q (SWhile c b).
Hypothesis HFor : forall i c s b, Q i -> Q s -> Q b -> Q (SFor i c s b).
Hypothesis HBreak : Q SBreak.
Hypothesis HContinue : Q SContinue.
Fixpoint stmt_ind2 (s : stmt) : Q s :=
  match s with
  | SLet p t e => HLet p t e
  | SConst c => HConst c
  | SAssign l r => HAssign l r
  | SReturn o => HReturn o
  | SIf c a None => HIf1 c a (stmt_ind2 a)
  | SIf c a (Some b) => HIf2 c a b (stmt_ind2 a) (stmt_ind2 b)
  | SExpr e => HExpr e
  | SBlock l => HBlock l
      ((fix go l := match l return Forall Q l with [] => Forall_nil _ | x :: r => Forall_cons _ (stmt_ind2 x) (go r) end) l)
  | SLoop b => HLoop b (stmt_ind2 b)
  | SWhile c b => HWhile c b (stmt_ind2 b)
  | SFor i c s b => HFor i c s b (stmt_ind2 i) (stmt_ind2 s) (stmt_ind2 b)
  | SBreak => HBreak
  | SContinue => HContinue
  end.
End StmtInd.

Definition pconst (c : cdef) : list token := K KConst :: TId (c_name c) :: K KEq :: pe (c_val c) ++ [K KSemi].
Definition psimple (s : stmt) : list token :=
  match s with SAssign l r => pe l ++ K KEq :: pe r | SExpr e => pe e | _ => [] end.
Fixpoint ps (s : stmt) : list token :=
  match s with
  | SLet p t e => K KLet :: ppat p ++ pann t ++ K KEq :: pe e ++ [K KSemi]
  | SConst c => pconst c
  | SAssign _ _ | SExpr _ => psimple s ++ [K KSemi]
  | SReturn o => K KReturn :: match o with Some e => pe e | None => [] end ++ [K KSemi]
  | SIf c a b => K KIf :: pe c ++ ps a ++ match b with Some b => K KElse :: ps b | None => [] end
  | SBlock l => K KLBrace :: flat_map ps l ++ [K KRBrace]
  | SLoop b => K KLoop :: ps b
  | SWhile c b => K KWhile :: pe c ++ ps b
  | SFor i c st b => K KFor :: K KLParen :: ps i ++ pe c ++ K KSemi :: psimple st ++ K KRParen :: ps b
  | SBreak => [K KBreak; K KSemi]
  | SContinue => [K KContinue; K KSemi]
  end.
Definition wfc (c : cdef) : bool := idok (c_name c) && all_opt wfty (c_ty c) && wfe (c_val c).
Fixpoint openif (s : stmt) : bool :=
  match s with
  | SIf _ _ None => true
  | SIf _ _ (Some b) => openif b
  | SLoop b | SWhile _ b | SFor _ _ _ b => openif b
  | _ => false
  end.
Definition is_simple (s : stmt) : bool := match s with SAssign _ _ | SExpr _ => true | _ => false end.
Definition is_init (s : stmt) : bool := match s with SLet _ _ _ => true | _ => is_simple s end.
Fixpoint wfs (s : stmt) : bool :=
  match s with
  | SLet p t e => wfp p && all_opt wfty t && wfe e
  | SConst c => wfc c
  | SAssign l r => wfe l && wfe r
  | SReturn o => all_opt wfe o
  | SIf c a b => wfe c && wfs a && match b with Some b => negb (openif a) && wfs b | None => true end
  | SExpr e => wfe e
  | SBlock l => forallb wfs l
  | SLoop b => wfs b
  | SWhile c b => wfe c && wfs b
  | SFor i c st b => is_init i && wfs i && wfe c && is_simple st && wfs st && wfs b
  | SBreak | SContinue => true
  end.
Fixpoint shgt (s : stmt) : nat :=
  match s with
  | SIf _ a b => S (Nat.max (shgt a) (match b with Some b => shgt b | None => 0 end))
  | SBlock l => S (maxl shgt l)
  | SLoop b => S (shgt b)
  | SWhile _ b => S (shgt b)
  | SFor _ _ _ b => S (shgt b)
  | _ => 0
  end.
Lemma flat_len {A} (f : A -> list token) l x : In x l -> length (f x) <= length (flat_map f l).
Proof. induction l as [|a l IH]; intros []; cbn; rewrite app_length; [subst; lia|]. specialize (IH H). lia. Qed.
Lemma shgt_len s : shgt s <= length (ps s).
Proof.
  induction s using stmt_ind2; cbn [shgt ps length]; rewrite ?app_length; cbn [length]; rewrite ?app_length;
    cbn [length]; rewrite ?app_length; cbn [length]; rewrite ?app_length; cbn [length]; try lia.
  enough (maxl shgt l <= length (flat_map ps l)) by lia.
  apply maxl_le. intros x Hx. rewrite Forall_forall in H. specialize (H x Hx).
  pose proof (flat_len ps l x Hx). lia.
Qed.

(** First tokens. *)
Definition hd2ok (ts : list token) : bool :=
  match ts with
  | K KRBrace :: _ => false
  | TId _ :: K KColon :: _ => false
  | _ => true
  end.
Lemma pe_hd2 e : forall rest, (forall r, rest <> K KColon :: r) -> hd2ok (pe e ++ rest) = true.
Proof.
  induction e using expr_ind2; intros rest Hr; cbn [pe]; rewrite <- ?app_assoc; cbn [app];
    try match goal with IH : forall r, _ -> hd2ok (pe ?a ++ _) = true |- hd2ok (pe ?a ++ _) = true => apply IH; discriminate end;
    try reflexivity.
  - destruct b; reflexivity.
  - destruct rest as [|[| |[]] rest]; try reflexivity. exfalso. exact (Hr rest eq_refl).
  - destruct o; reflexivity.
  - apply IHe1. destruct o; discriminate.
Qed.
Lemma pe_hd2k e k r : k <> KColon -> hd2ok (pe e ++ K k :: r) = true.
Proof. intro H. apply pe_hd2. congruence. Qed.
Lemma ps_hd2 s r : is_simple s = true \/ True -> hd2ok (ps s ++ r) = true.
Proof.
  intros _. destruct s; try reflexivity.
  - cbn [ps psimple]. rewrite <- !app_assoc. apply pe_hd2k. discriminate.
  - cbn [ps psimple]. rewrite <- !app_assoc. apply pe_hd2k. discriminate.
Qed.
Lemma pe_cases e rest (f : list token -> Prop) :
  (forall t ts, starter t = true -> f (t :: ts)) -> f (pe e ++ rest).
Proof. intro H. pose proof (pe_start e) as Hst. destruct (pe e) as [|t ts]; [discriminate|]. apply H, Hst. Qed.
Definition noelse (ts : list token) : bool := match ts with K KElse :: _ => false | _ => true end.
Lemma ps_noelse s r : noelse (ps s ++ r) = true.
Proof.
  destruct s; try reflexivity; cbn [ps psimple]; rewrite <- !app_assoc;
    apply pe_cases; intros [| |k] ts H; try reflexivity; destruct k; try reflexivity; discriminate.
Qed.
Definition nobrace (ts : list token) : bool := match ts with K KLBrace :: _ => false | _ => true end.
Lemma nostruct_nobrace ts : nobrace ts = true -> nostruct ts = true.
Proof. destruct ts as [|[| |[]] ts]; try reflexivity. discriminate. Qed.

(** Conditions. *)
Lemma leftmost_paren e rest : starts_paren e = false -> forall r, pe e ++ rest <> K KLParen :: r.
Proof.
  unfold starts_paren. revert rest.
  induction e using expr_ind2; cbn [leftmost pe]; intros rest Hp r; rewrite <- ?app_assoc; cbn [app]; auto; try discriminate.
  - destruct b; discriminate.
  - destruct o; discriminate.
Qed.
Lemma leftmost_cont e rest : continues e = false -> stopk 0 (pe e ++ rest) = true.
Proof.
  unfold continues. revert rest.
  induction e using expr_ind2; cbn [leftmost pe]; intros rest Hp; rewrite <- ?app_assoc; cbn [app]; auto; try discriminate.
  - destruct b; reflexivity.
  - destruct o; [reflexivity | discriminate].
Qed.
Lemma cond_rt c rest : wfe c = true -> pre c = true -> starts_paren c = false -> stopk 0 rest = true ->
  okid c rest -> cond_p (pe c ++ rest) = POk c rest.
Proof.
  intros. unfold cond_p. rewrite orelse_r; [apply expr_rt; auto|].
  unfold delim. apply bind_fail, just_kw. apply leftmost_paren. assumption.
Qed.
Lemma apart_stop c a r : apart c a = true -> starts_paren c = false /\ stopk 0 (ps a ++ r) = true /\ okid c (ps a ++ r).
Proof.
  unfold apart. intro H. apply andb_prop in H as [H1 H2]. apply negb_true_iff in H1. split; [exact H1|].
  assert (Hexp : forall e ts, nostruct (pe e ++ ts) = true).
  { intros e ts. apply nostruct_nobrace, pe_cases. intros [| |k] l Hl; try reflexivity.
    destruct k; try reflexivity; discriminate. }
  destruct a; try (split; [reflexivity | intros _; reflexivity]).
  - cbn [ps psimple]. rewrite <- !app_assoc. apply negb_true_iff in H2. split; [apply leftmost_cont, H2 | intros _; apply Hexp].
  - cbn [ps psimple]. rewrite <- !app_assoc. apply negb_true_iff in H2. split; [apply leftmost_cont, H2 | intros _; apply Hexp].
  - split; [reflexivity|]. intro He. destruct l as [|s l].
    + rewrite He in H2. discriminate.
    + cbn [ps flat_map app]. rewrite <- !app_assoc. pose proof (ps_hd2 s (flat_map ps l ++ [K KRBrace] ++ r) (or_intror I)) as Hd.
      destruct (ps s ++ _) as [|[| |k] [|[| |j] ts]]; try reflexivity; try (destruct k; try reflexivity; discriminate).
      destruct j; try reflexivity; discriminate.
Qed.

(** A token that ends an expression. *)
Definition ends (k : kw) : bool := match k with KSemi | KRParen | KEq => true | _ => false end.
Lemma expr_end e k r : wfe e = true -> pre e = true -> ends k = true -> expr_p (pe e ++ K k :: r) = POk e (K k :: r).
Proof. intros W Pr H. apply expr_rt; auto; destruct k; try discriminate; try reflexivity; intros _; reflexivity. Qed.
Lemma simple_rt s k r : is_simple s = true -> wfs s = true -> prs s = true -> ends k = true -> k <> KEq ->
  simple_p (psimple s ++ K k :: r) = POk s (K k :: r).
Proof.
  intros Hs W Pr Hk Hn. unfold simple_p. destruct s; try discriminate; cbn [psimple wfs prs] in *.
  - apply andb_prop in W as [W1 W2]. apply andb_prop in Pr as [P1 P2]. rewrite <- app_assoc. cbn [app].
    rewrite (bind_eq _ _ _ _ _ (expr_end l KEq _ W1 P1 eq_refl)).
    rewrite (bind_eq _ _ _ (Some r0) (K k :: r)); [reflexivity|].
    apply opt_some. rewrite bind_just. apply expr_end; auto.
  - rewrite (bind_eq _ _ _ _ _ (expr_end e k r W Pr Hk)).
    rewrite (bind_eq _ _ _ None (K k :: r)); [reflexivity|].
    apply opt_none, bind_fail, just_kw. congruence.
Qed.
Lemma simple_semi_rt s r : is_simple s = true -> wfs s = true -> prs s = true ->
  simple_semi (ps s ++ r) = POk s r.
Proof.
  intros Hs W Pr. replace (ps s) with (psimple s ++ [K KSemi]) by (destruct s; try discriminate; reflexivity).
  unfold simple_semi. rewrite <- app_assoc. cbn [app].
  rewrite (bind_eq _ _ _ s (K KSemi :: r)) by (apply simple_rt; auto; discriminate).
  rewrite bind_just. reflexivity.
Qed.
Lemma let_rt p t e r : wfs (SLet p t e) = true -> prs (SLet p t e) = true ->
  let_p (ps (SLet p t e) ++ r) = POk (SLet p t e) r.
Proof.
  cbn [wfs prs ps app]. intros W Pr. apply andb_prop in W as [W W3]. apply andb_prop in W as [W1 W2].
  apply andb_prop in Pr as [P1 P2]. unfold let_p. rewrite <- !app_assoc. cbn [app]. rewrite <- !app_assoc. cbn [app].
  rewrite bind_just, (bind_eq _ _ _ _ _ (pat_rt p _ W1)), (bind_eq _ _ _ _ _ (ann_rt t _ W2 P1)), bind_just.
  rewrite (bind_eq _ _ _ _ _ (expr_end e KSemi r W3 P2 eq_refl)), bind_just. reflexivity.
Qed.
Lemma const_rt c r : wfc c = true -> prc c = true -> const_p (pconst c ++ r) = POk c r.
Proof.
  unfold wfc, prc. intros W Pr. destruct c as [x [t|] e]; cbn [c_name c_ty c_val] in *; [discriminate|].
  apply andb_prop in W as [W W3]. unfold const_p, pconst. cbn [c_name c_val app]. rewrite <- app_assoc. cbn [app].
  rewrite bind_just, bind_ident, (bind_eq _ _ _ None (K KEq :: pe e ++ K KSemi :: r)) by reflexivity.
  rewrite bind_just, (bind_eq _ _ _ _ _ (expr_end e KSemi r W3 Pr eq_refl)), bind_just. reflexivity.
Qed.
Lemma repeated_list {A} (p : parser A) pp l rest : shr p -> p rest = PFail ->
  (forall x r, In x l -> (r = rest \/ exists y r', In y l /\ r = pp y ++ r') -> p (pp x ++ r) = POk x r) ->
  repeated p (flat_map pp l ++ rest) = POk l rest.
Proof.
  intros Hs Hf Hp. induction l as [|x l IH]; [apply repeated_nil, Hf|].
  cbn [flat_map]. rewrite <- app_assoc.
  rewrite (repeated_cons p _ x (flat_map pp l ++ rest)); [rewrite IH; [reflexivity|] | exact Hs |].
  - intros y r Hy Hr. apply Hp; [right; exact Hy|]. destruct Hr as [|(z & r' & Hz & ->)]; [auto | right].
    exists z, r'. split; [right; exact Hz | reflexivity].
  - apply Hp; [left; reflexivity|]. destruct l as [|y l]; [left; reflexivity|]. right.
    exists y, (flat_map pp l ++ rest). split; [right; left; reflexivity|]. cbn. rewrite <- app_assoc. reflexivity.
Qed.
Lemma simple_skip (p : parser stmt) s r : is_simple s = true ->
  (forall t ts, starter t = true -> p (t :: ts) = PFail) -> p (ps s ++ r) = PFail.
Proof.
  intros Hs H. destruct s; try discriminate; cbn [ps psimple]; rewrite <- !app_assoc; apply pe_cases; exact H.
Qed.
Theorem stmt_n_rt n : forall s rest, shgt s < n -> wfs s = true -> prs s = true ->
  (openif s = true -> noelse rest = true) -> stmt_n n (ps s ++ rest) = POk s rest.
Proof.
  induction n as [|n IH]; intros s rest Hh W Pr Ho; [lia|]. cbn [stmt_n].
  assert (Hsimple : is_simple s = true -> stmt_f (stmt_n n) (ps s ++ rest) = POk s rest).
  { intro Hs. unfold stmt_f.
    do 10 (rewrite orelse_r by (apply simple_skip; [exact Hs|]; intros [| |k] ts Hk; try reflexivity;
      destruct k; try discriminate Hk; reflexivity)).
    apply simple_semi_rt; auto. }
  destruct s as [p t e|c|l r|o|c a b|e|l|b|c b|i c st b| |]; try (apply Hsimple; reflexivity); clear Hsimple; unfold stmt_f.
  - do 7 (rewrite orelse_r by reflexivity). apply orelse_l, let_rt; auto.
  - do 8 (rewrite orelse_r by reflexivity). apply orelse_l. cbn [ps].
    rewrite (bind_eq _ _ _ c rest); [reflexivity|]. apply const_rt; auto.
  - do 9 (rewrite orelse_r by reflexivity). apply orelse_l. cbn [ps app]. unfold return_p. rewrite bind_just.
    rewrite <- app_assoc. cbn [app]. cbn in W, Pr. destruct o as [e|].
    + rewrite (bind_eq _ _ _ (Some e) (K KSemi :: rest)) by (apply opt_some, expr_end; auto). apply bind_just.
    + rewrite (bind_eq _ _ _ None (K KSemi :: rest)) by reflexivity. apply bind_just.
  - cbn [wfs prs shgt openif] in *. apply andb_prop in W as [W W3]. apply andb_prop in W as [W1 W2].
    apply andb_prop in Pr as [Pr P4]. apply andb_prop in Pr as [Pr P3]. apply andb_prop in Pr as [P1 P2].
    rewrite orelse_r by reflexivity. apply orelse_l. unfold if_p. cbn [ps app]. rewrite <- !app_assoc.
    rewrite bind_just.
    set (tl := match b with Some b => K KElse :: ps b | None => [] end ++ rest).
    destruct (apart_stop c a tl P2) as (A1 & A2 & A3).
    rewrite (bind_eq _ _ _ c (ps a ++ tl)) by (apply cond_rt; auto).
    destruct b as [b|].
    + apply andb_prop in W3 as [W3 W4]. apply negb_true_iff in W3.
      rewrite (bind_eq _ _ _ a tl) by (apply IH; auto; [lia | congruence]). unfold tl. cbn [app].
      rewrite (bind_eq _ _ _ (Some b) rest); [reflexivity|]. apply opt_some. rewrite bind_just. apply IH; auto. lia.
    + rewrite (bind_eq _ _ _ a tl) by (apply IH; auto; lia). unfold tl. cbn [app].
      rewrite (bind_eq _ _ _ None rest); [reflexivity|]. apply opt_none, bind_fail, just_kw.
      intros r ->. specialize (Ho eq_refl). discriminate.
  - cbn [wfs prs shgt] in *. apply orelse_l. unfold block_p. cbn [ps app]. rewrite <- app_assoc. cbn [app].
    rewrite (bind_eq _ _ _ l rest); [reflexivity|]. apply delim_ok.
    apply repeated_list; [apply shr_stmt_n | destruct n; [lia | reflexivity] |].
    intros x r Hx Hr. apply IH; eauto using forallb_in.
    + pose proof (maxl_in shgt l x Hx). lia.
    + intros _. destruct Hr as [-> | (y & r' & _ & ->)]; [reflexivity | apply ps_noelse].
  - cbn [wfs prs shgt openif] in *. do 2 (rewrite orelse_r by reflexivity). apply orelse_l. unfold loop_p. cbn [ps app].
    rewrite bind_just, (bind_eq _ _ _ b rest) by (apply IH; auto; lia). reflexivity.
  - cbn [wfs prs shgt openif] in *. apply andb_prop in W as [W1 W2].
    apply andb_prop in Pr as [Pr P3]. apply andb_prop in Pr as [P1 P2].
    do 3 (rewrite orelse_r by reflexivity). apply orelse_l. unfold while_p. cbn [ps app]. rewrite <- app_assoc.
    destruct (apart_stop c b rest P2) as (A1 & A2 & A3).
    rewrite bind_just, (bind_eq _ _ _ c (ps b ++ rest)) by (apply cond_rt; auto).
    rewrite (bind_eq _ _ _ b rest) by (apply IH; auto; lia). reflexivity.
  - cbn [wfs prs shgt openif] in *. repeat (apply andb_prop in W as [W ?]). repeat (apply andb_prop in Pr as [Pr ?]).
    do 4 (rewrite orelse_r by reflexivity). apply orelse_l. unfold for_p. cbn [ps app].
    rewrite bind_just, bind_just, <- !app_assoc. cbn [app]. rewrite <- !app_assoc. cbn [app].
    rewrite (bind_eq _ _ _ i (pe c ++ K KSemi :: psimple st ++ K KRParen :: ps b ++ rest)).
    + rewrite (bind_eq _ _ _ c (K KSemi :: psimple st ++ K KRParen :: ps b ++ rest)) by (apply expr_end; auto).
      rewrite bind_just, (bind_eq _ _ _ st (K KRParen :: ps b ++ rest)) by (apply simple_rt; auto; discriminate).
      rewrite bind_just, (bind_eq _ _ _ b rest) by (apply IH; auto; lia). reflexivity.
    + destruct (is_simple i) eqn:Ei.
      * rewrite orelse_r.
        -- apply simple_semi_rt; auto.
        -- apply simple_skip; [exact Ei|]. intros [| |k] ts Hk; try reflexivity. destruct k; try discriminate Hk; reflexivity.
      * destruct i; try discriminate. apply orelse_l, let_rt; auto.
  - reflexivity.
  - reflexivity.
Qed.
Theorem stmt_rt s rest : wfs s = true -> prs s = true -> (openif s = true -> noelse rest = true) ->
  stmt_p (ps s ++ rest) = POk s rest.
Proof. intros. unfold stmt_p, fueled. apply stmt_n_rt; auto. pose proof (shgt_len s). rewrite app_length. lia. Qed.

(** ** Items *)
Definition ptn (p : string * ty) : list token := TId (fst p) :: K KColon :: pty (snd p).
Definition pret (t : ty) : list token := match t with TyTuple [] => [] | _ => K KArrow :: pty t end.
Definition pitem (i : item) : list token :=
  match i with
  | IFn f => K KFn :: TId (f_name f) :: K KLParen :: psep KComma (map ptn (f_params f)) ++ K KRParen ::
             pret (f_ret f) ++ K KLBrace :: flat_map ps (f_body f) ++ [K KRBrace]
  | IStruct s => K KStruct :: TId (s_name s) :: K KLBrace ::
                 flat_map (fun p => ptn p ++ [K KComma]) (s_fields s) ++ [K KRBrace]
  | IConst c => pconst c
  | IUse u => K KUse :: psep KColons (map (fun x => [TId x]) (u_path u)) ++ K KColons ::
              match u_items u with
              | USingle x => [TId x]
              | UList xs => K KLBrace :: psep KComma (map (fun x => [TId x]) xs) ++ [K KRBrace]
              end ++ [K KSemi]
  end.
Definition wftn (p : string * ty) : bool := idok (fst p) && wfty (snd p).
Definition wfi (i : item) : bool :=
  match i with
  | IFn f => idok (f_name f) && forallb wftn (f_params f) && wfty (f_ret f) && forallb wfs (f_body f)
  | IStruct s => idok (s_name s) && forallb wftn (s_fields s)
  | IConst c => wfc c
  | IUse u => forallb idok (u_path u) && match u_items u with USingle x => idok x | UList xs => forallb idok xs end
  end.
Lemma typed_rt p r : wftn p = true -> prt (snd p) = true -> nostar r = true -> typed_name (ptn p ++ r) = POk p r.
Proof.
  destruct p as [x t]. unfold wftn, ptn. cbn [fst snd app]. intros W Pr Hr. apply andb_prop in W as [_ W].
  unfold typed_name. rewrite bind_ident, bind_just, (bind_eq _ _ _ _ _ (ty_rt t r W Pr Hr)). reflexivity.
Qed.
Lemma typed_fail k r : typed_name (K k :: r) = PFail.
Proof. reflexivity. Qed.
Lemma fields_tok l rest : l <> [] ->
  flat_map (fun p => ptn p ++ [K KComma]) l ++ rest = psep KComma (map ptn l) ++ K KComma :: rest.
Proof.
  induction l as [|a l IH]; intro H; [congruence|]. destruct l as [|b l].
  - cbn [flat_map map psep]. rewrite app_nil_r, <- app_assoc. reflexivity.
  - cbn [flat_map]. cbn [flat_map] in IH. rewrite <- app_assoc, IH by discriminate.
    rewrite psep_cons. change (psep KComma (map ptn (a :: b :: l))) with (ptn a ++ K KComma :: psep KComma (map ptn (b :: l))).
    rewrite psep_cons, <- !app_assoc. cbn [app]. rewrite <- !app_assoc. reflexivity.
Qed.
Lemma names_ok l k rest s : k <> s -> l <> [] ->
  sep s ident (psep s (map (fun x => [TId x]) l) ++ K k :: rest) = POk l (K k :: rest).
Proof.
  intros Hk Hl. apply sep_ok; [apply shr_ident | left; apply just_kw; congruence | congruence |]. reflexivity.
Qed.
Lemma psep_snoc k l x : l <> [] ->
  psep k (map (fun x => [TId x]) l) ++ [K k; TId x] = psep k (map (fun x => [TId x]) (l ++ [x])).
Proof.
  induction l as [|a l IH]; intro H; [congruence|]. destruct l as [|b l]; [reflexivity|].
  change (psep k (map (fun x => [TId x]) (a :: b :: l))) with ([TId a] ++ K k :: psep k (map (fun x => [TId x]) (b :: l))).
  rewrite <- app_assoc. cbn [app]. cbn [app] in IH. rewrite IH by discriminate. reflexivity.
Qed.
Lemma names_trail l k rest s : k <> s -> l <> [] ->
  sep s ident (psep s (map (fun x => [TId x]) l) ++ K s :: K k :: rest) = POk l (K s :: K k :: rest).
Proof.
  intros Hk Hl. apply sep_ok; [apply shr_ident | right; exists (K k :: rest); split; reflexivity | congruence |]. reflexivity.
Qed.
Theorem item_rt i rest : wfi i = true -> printable_item i = true -> item_p (pitem i ++ rest) = POk i rest.
Proof.
  intros W Pr. unfold item_p. destruct i as [[x prm t b]|[x fs]|c|[path its]]; cbn [wfi printable_item pitem f_name f_params f_ret f_body s_name s_fields u_path u_items] in *.
  - repeat (apply andb_prop in W as [W ?]). repeat (apply andb_prop in Pr as [Pr ?]).
    apply orelse_l. rewrite (bind_eq _ _ _ (Fdef x prm t b) rest); [reflexivity|].
    unfold fn_p. cbn [app]. rewrite bind_just, bind_ident, <- !app_assoc. cbn [app]. rewrite <- !app_assoc. cbn [app]. rewrite <- !app_assoc. cbn [app].
    rewrite (bind_eq _ _ _ prm (pret t ++ K KLBrace :: flat_map ps b ++ K KRBrace :: rest)).
    + rewrite (bind_eq _ _ _ (match t with TyTuple [] => None | _ => Some t end) (K KLBrace :: flat_map ps b ++ K KRBrace :: rest)).
      * rewrite (bind_eq _ _ _ b rest); [destruct t as [| |[|]|]; reflexivity|]. apply delim_ok.
        apply repeated_list; [apply shr_stmt | reflexivity |].
        intros s r Hs Hr. apply stmt_rt; eauto using forallb_in.
        intros _. destruct Hr as [-> | (y & r' & _ & ->)]; [reflexivity | apply ps_noelse].
      * assert (Ht : opt (just KArrow ;; ty_p) ((K KArrow :: pty t) ++ K KLBrace :: flat_map ps b ++ K KRBrace :: rest)
                     = POk (Some t) (K KLBrace :: flat_map ps b ++ K KRBrace :: rest)).
        { apply opt_some. cbn [app]. rewrite bind_just. apply ty_rt; auto. }
        destruct t as [| |[|]|]; try exact Ht. reflexivity.
    + apply delim_ok. apply sept_ok; [apply shr_typed_name | reflexivity | reflexivity |].
      intros p Hp r Hr. apply typed_rt; eauto using forallb_in.
      * exact (forallb_in _ _ _ Pr Hp).
      * destruct Hr as [-> | (r' & ->)]; reflexivity.
  - apply andb_prop in W as [W1 W2]. rewrite orelse_r by reflexivity. apply orelse_l.
    rewrite (bind_eq _ _ _ (Sdef x fs) rest); [reflexivity|].
    unfold struct_def. cbn [app]. rewrite bind_just, bind_ident, <- !app_assoc. cbn [app].
    rewrite (bind_eq _ _ _ fs rest); [reflexivity|]. apply delim_ok.
    destruct fs as [|f fs]; [reflexivity|]. rewrite fields_tok by discriminate.
    unfold sept. rewrite (bind_eq _ _ _ (f :: fs) (K KComma :: K KRBrace :: rest)); [reflexivity|].
    apply sep_ok; [apply shr_typed_name | right; eexists; split; reflexivity | discriminate |].
    intros p Hp r Hr. apply typed_rt; eauto using forallb_in.
    + exact (forallb_in _ _ _ Pr Hp).
    + destruct Hr as [-> | (r' & ->)]; reflexivity.
  - do 2 (rewrite orelse_r by reflexivity). apply orelse_l.
    rewrite (bind_eq _ _ _ c rest); [reflexivity|]. apply const_rt; auto.
  - do 3 (rewrite orelse_r by reflexivity). rewrite (bind_eq _ _ _ (Use path its) rest); [reflexivity|].
    assert (Hne : path <> []) by (destruct path; discriminate).
    unfold use_p. cbn [app]. rewrite bind_just. destruct its as [y|xs].
    + apply orelse_l. unfold single_p.
      replace ((psep KColons (map (fun x => [TId x]) path) ++ K KColons :: [TId y] ++ [K KSemi]) ++ rest)
        with (psep KColons (map (fun x => [TId x]) (path ++ [y])) ++ K KSemi :: rest)
        by (rewrite <- psep_snoc by exact Hne; rewrite <- !app_assoc; reflexivity).
      unfold path_p. rewrite (bind_eq _ _ _ (path ++ [y]) (K KSemi :: rest)).
      * rewrite bind_just, removelast_last, last_last. reflexivity.
      * rewrite (bind_eq _ _ _ _ _ (names_ok (path ++ [y]) KSemi rest KColons ltac:(discriminate) ltac:(destruct path; discriminate))).
        destruct path; reflexivity.
    + assert (Hp : path_p ((psep KColons (map (fun x => [TId x]) path) ++ K KColons :: (K KLBrace :: psep KComma (map (fun x => [TId x]) xs) ++ [K KRBrace]) ++ [K KSemi]) ++ rest)
                   = POk path (K KColons :: K KLBrace :: psep KComma (map (fun x => [TId x]) xs) ++ K KRBrace :: K KSemi :: rest)).
      { unfold path_p. rewrite <- !app_assoc. cbn [app]. rewrite <- !app_assoc. cbn [app].
        rewrite (bind_eq _ _ _ _ _ (names_trail path KLBrace _ KColons ltac:(discriminate) Hne)).
        destruct path; [congruence | reflexivity]. }
      rewrite orelse_r.
      * unfold list_p. rewrite (bind_eq _ _ _ _ _ Hp), bind_just.
        rewrite (bind_eq _ _ _ xs (K KSemi :: rest)); [apply bind_just|]. apply delim_ok.
        apply sept_ok; [apply shr_ident | reflexivity | reflexivity | reflexivity].
      * unfold single_p. rewrite (bind_eq _ _ _ _ _ Hp). reflexivity.
Qed.
Definition pm (m : module) : list token := flat_map pitem m.
(** Tokens back to the module. *)
Theorem module_rt m : forallb wfi m = true -> printable m = true -> module_p (pm m) = POk m [].
Proof.
  intros W Pr. unfold module_p, pm. rewrite <- (app_nil_r (flat_map pitem m)).
  rewrite (repeated_list item_p pitem m []); [reflexivity | apply shr_item | reflexivity |].
  intros x r Hx _. apply item_rt; eauto using forallb_in.
Qed.
