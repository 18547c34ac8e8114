(** Formatted text has the tokens of the program, whatever the line width, the indentation and
    the comments. *)
From Coq Require Import NArith Bool Ascii String List Lia PeanoNat.
From Verif Require Import Lex Syn SynSpec Fmt Parse ParseComb ParseFacts ParseStmt ParseSound LexFacts.
Import ListNotations.
Open Scope string_scope.
Open Scope bool_scope.
Open Scope list_scope.
Notation "a +++ b" := (String.append a b) (at level 60, right associativity).

(** ** The texts of a document *)
Inductive atom : Set := AT (s : string) | AL | AS.
Fixpoint datoms (d : doc) : list atom :=
  match d with
  | Nil => []
  | Text s => [AT s]
  | Line => [AL]
  | SoftLine => [AS]
  | Group i => datoms i
  | Indent _ i => datoms i
  | Concat ds => flat_map datoms ds
  end.
(** A way to lay them out, before indentation. *)
Inductive R : list atom -> string -> Prop :=
| R_nil : R [] ""
| R_text s k y : R k y -> R (AT s :: k) (s +++ y)
| R_line k y : R k y -> R (AL :: k) (String newline y)
| R_soft1 k y : R k y -> R (AS :: k) (String space y)
| R_soft2 k y : R k y -> R (AS :: k) (String newline y).
Lemma R_app a b y z : R a y -> R b z -> R (a ++ b) (y +++ z).
Proof. intros Ha Hb. induction Ha; cbn [app append]; rewrite ?app_assoc_s; try (constructor; assumption). exact Hb. Qed.

(** The content of every indentation starts on a new line. *)
Definition new_line (k : list atom) : bool := match k with AL :: _ => true | _ => false end.
Fixpoint wfdoc (d : doc) : bool :=
  match d with
  | Group i => wfdoc i
  | Indent _ i => wfdoc i && new_line (datoms i)
  | Concat ds => forallb wfdoc ds
  | _ => true
  end.
Section DocInd.
Variable Q : doc -> Prop.
Hypothesis HNil : Q Nil.
Hypothesis HText : forall s, Q (Text s).
Hypothesis HLine : Q Line.
Hypothesis HSoft : Q SoftLine.
Hypothesis HGroup : forall d, Q d -> Q (Group d).
Hypothesis HIndent : forall w d, Q d -> Q (Indent w d).
Hypothesis HConcat : forall ds, Forall Q ds -> Q (Concat ds).
Fixpoint doc_ind2 (d : doc) : Q d :=
  match d with
  | Nil => HNil
  | Text s => HText s
  | Line => HLine
  | SoftLine => HSoft
  | Group i => HGroup i (doc_ind2 i)
  | Indent w i => HIndent w i (doc_ind2 i)
  | Concat ds => HConcat ds
      ((fix go l := match l return Forall Q l with [] => Forall_nil _ | x :: r => Forall_cons _ (doc_ind2 x) (go r) end) ds)
  end.
End DocInd.

Lemma after_mono b c : after false c = true -> after b c = true.
Proof. unfold after. destruct (c =? newline)%char; [reflexivity|]. destruct (is_white c); [discriminate | discriminate]. Qed.
Lemma ind_mono b y x : ind b y x -> forall b', (b = true -> b' = true) -> ind b' y x.
Proof.
  induction 1 as [b | y x H IH | b c y x H IH]; intros b' Hb.
  - constructor.
  - rewrite (Hb eq_refl). constructor. apply IH. auto.
  - constructor. apply IH. unfold after. destruct (c =? newline)%char; [auto|]. destruct (is_white c); auto.
Qed.
Lemma ind_app b y1 x1 y2 x2 : ind b y1 x1 -> ind false y2 x2 -> ind b (y1 +++ y2) (x1 +++ x2).
Proof.
  intros H H2. induction H; cbn [append]; try (constructor; assumption).
  apply (ind_mono false); [exact H2 | discriminate].
Qed.
Lemma ind_trans b y x z : ind b y x -> ind b x z -> ind b y z.
Proof.
  intros H1 H2. revert y H1. induction H2 as [b | x z H IH | b c x z H IH]; intros y H1.
  - exact H1.
  - constructor. apply IH, H1.
  - inversion H1 as [|y1 x1 H3 |b1 c1 y1 x1 H3]; subst.
    + constructor. apply IH. exact H3.
    + constructor. apply IH. exact H3.
Qed.
Lemma ind_spaces w y x : ind true y x -> ind true y (spaces w +++ x).
Proof. intro H. induction w; cbn; [exact H | constructor; assumption]. Qed.
Lemma indented_ind w s : forall start pos b, (start = true -> b = true) -> ind b s (fst (indented w start s pos)).
Proof.
  induction s as [|c s IH]; intros start pos b Hb; [constructor|]. cbn [indented].
  destruct (start && negb (is_white c)) eqn:Eh.
  - apply andb_prop in Eh as [-> Ew]. apply negb_true_iff in Ew. rewrite (Hb eq_refl).
    destruct (c =? newline)%char eqn:En.
    + apply Ascii.eqb_eq in En. subst. discriminate.
    + specialize (IH false (pos + w + 1) (after true c) ltac:(discriminate)).
      destruct (indented w false s (pos + w + 1)) as [out p]. cbn [fst] in *.
      apply ind_spaces. constructor. exact IH.
  - destruct (c =? newline)%char eqn:En.
    + specialize (IH true 0 (after b c)). unfold after in IH. rewrite En in IH. specialize (IH ltac:(auto)).
      destruct (indented w true s 0) as [out p]. cbn [fst append] in *. constructor. unfold after. rewrite En. exact IH.
    + specialize (IH start (pos + 1) (after b c)).
      destruct (indented w start s (pos + 1)) as [out p]. cbn [fst append] in *. constructor. apply IH.
      intros ->. unfold after. rewrite En. cbn [andb] in Eh. apply negb_false_iff in Eh. rewrite Eh. auto.
Qed.
Lemma render_R d : wfdoc d = true -> forall width m pos,
  exists y, R (datoms d) y /\ ind false y (fst (render_doc width d m pos)).
Proof.
  induction d as [|s| | |d IH|w d IH|ds IH] using doc_ind2; intros W width m pos; cbn [datoms].
  - exists "". split; [constructor | apply ind_refl].
  - exists s. split; [|apply ind_refl]. rewrite <- (app_nil_s s) at 2. apply R_text, R_nil.
  - exists (String newline ""). split; [constructor; constructor | apply ind_refl].
  - destruct m.
    + exists (String space ""). split; [constructor; constructor | apply ind_refl].
    + exists (String newline ""). split; [apply R_soft2; constructor | apply ind_refl].
  - cbn [render_doc]. apply IH, W.
  - cbn [wfdoc] in W. apply andb_prop in W as [W1 W2]. cbn [render_doc].
    destruct (IH W1 width m 0) as (y & Hy & Hi). exists y. split; [exact Hy|].
    apply (ind_trans _ _ _ _ Hi). destruct (datoms d) as [|[| |] k]; try discriminate.
    inversion Hy as [| |k' y' Hy' | |]; subst. inversion Hi as [| |b c y1 x1 H1 E1 E2 E3]; subst. cbn [indented]. change (is_white newline) with true. change (newline =? newline)%char with true.
    cbn [negb]. rewrite andb_false_r.
    pose proof (indented_ind w x1 true 0 true ltac:(auto)) as Hx.
    destruct (indented w true x1 0) as [out p]. cbn [fst append] in *. constructor. exact Hx.
  - cbn [render_doc wfdoc] in *. revert pos. induction ds as [|d ds IHl]; intro pos.
    + exists "". split; [constructor | apply ind_refl].
    + inversion IH as [|? ? Hd Hds]; subst. cbn [forallb] in W. apply andb_prop in W as [W1 W2].
      cbn [flat_map]. destruct (Hd W1 width m pos) as (y1 & Hy1 & Hi1).
      destruct (render_doc width d m pos) as [a p]. destruct (IHl Hds W2 p) as (y2 & Hy2 & Hi2).
      match goal with |- context [let '(b, q) := ?e in _] => destruct e as [b q] end. cbn [fst] in *.
      exists (y1 +++ y2). split; [apply R_app; assumption | apply ind_app; assumption].
Qed.

(** ** The tokens of the texts *)
Definition is_comment (s : string) : bool := prefix "//" s.
Fixpoint fc (k : list atom) : option ascii :=
  match k with
  | [] => None
  | AT s :: r => match firstc s with Some c => Some c | None => fc r end
  | _ => Some newline
  end.
(** No two neighbouring texts can be mistaken for one token; comments go to the end of the line. *)
Fixpoint chain (com : bool) (k : list atom) : bool :=
  match k with
  | [] => true
  | AL :: r => chain false r
  | AS :: r => negb com && chain false r
  | AT s :: r =>
      if com then nonl s && chain true r
      else if is_comment s then nonl s && chain true r
      else noslash s && safe (lastc s) (fc r) && chain false r
  end.
Fixpoint toks (com : bool) (k : list atom) : option (list token) :=
  match k with
  | [] => Some []
  | AL :: r => toks false r
  | AS :: r => toks false r
  | AT s :: r =>
      if com then toks true r
      else if is_comment s then toks true r
      else more (lex s) (toks false r)
  end.
Lemma joins_ws c d : is_ws d = true -> joins c d = false.
Proof.
  intro H. assert (E : d = space \/ d = newline \/ d = ascii_of_N 9 \/ d = ascii_of_N 13).
  { unfold is_ws in H. repeat (apply orb_prop in H as [H | H]); apply Ascii.eqb_eq in H; auto. }
  assert (Hj : forall e, is_ws e = true -> joins c e = false).
  { clear. intros e He. unfold joins. rewrite (ws_not_word e He), andb_false_r. cbn [orb].
    assert (Hs : slashes c e = false).
    { unfold slashes. destruct (e =? "/")%char eqn:E; [apply Ascii.eqb_eq in E; subst; discriminate | apply andb_false_r]. }
    rewrite Hs. cbn [orb]. unfold two. destruct (find _ two_table) as [x|] eqn:Ef; [|reflexivity].
    apply find_some in Ef as [Hin Hx]. apply andb_prop in Hx as [_ Hx]. apply Ascii.eqb_eq in Hx. subst e.
    repeat destruct Hin as [<- | Hin]; try discriminate. destruct Hin. }
  apply Hj, H.
Qed.
Lemma R_first k y : R k y -> firstc y = fc k \/ (exists d, firstc y = Some d /\ is_ws d = true /\ fc k = Some newline).
Proof.
  induction 1 as [|s k y H IH|k y H|k y H|k y H]; auto.
  - destruct s as [|c s]; [exact IH | left; reflexivity].
  - right. exists space. auto.
Qed.
Lemma safe_first a k y : R k y -> safe a (fc k) = true -> safe a (firstc y) = true.
Proof.
  intros H Hs. destruct (R_first k y H) as [-> | (d & -> & Hd & _)]; [exact Hs|].
  destruct a as [c|]; [|reflexivity]. cbn. rewrite joins_ws by exact Hd. reflexivity.
Qed.
Lemma go_nonl s t : nonl s = true -> go "" true (s +++ t) = go "" true t.
Proof.
  induction s as [|c s IH]; intro H; [reflexivity|]. cbn [nonl] in H. apply andb_prop in H as [H1 H2].
  cbn [append go]. rewrite H1. auto.
Qed.
Lemma comment_form s : is_comment s = true -> exists r, s = String "/" (String "/" r).
Proof.
  unfold is_comment. destruct s as [|c s]; [discriminate|]. cbn [prefix]. destruct (ascii_dec "/" c) as [E|]; [|discriminate].
  destruct s as [|d s]; [discriminate|]. cbn [prefix]. destruct (ascii_dec "/" d) as [E2|]; [|discriminate]. subst. eauto.
Qed.
Lemma go_line s t : is_comment s = true -> nonl s = true -> go "" false (s +++ t) = go "" true t.
Proof.
  intros Hc Hn. destruct (comment_form s Hc) as [r ->]. cbn [nonl] in Hn. apply andb_prop in Hn as [_ Hn].
  apply andb_prop in Hn as [_ Hn]. cbn [append]. cbn [go]. cbn [slashes is_word]. 
  change (is_word "/") with false. change (is_ws "/") with false. change (slashes "/" "/") with true.
  cbv iota. change (flush "") with (Some (@nil token)). rewrite more_nil_l. apply go_nonl, Hn.
Qed.
Lemma lex_R k y : R k y -> forall com, chain com k = true -> go "" com y = toks com k.
Proof.
  induction 1 as [|s k y H IH|k y H IH|k y H IH|k y H IH]; intros com Hc; cbn [chain toks] in *.
  - destruct com; reflexivity.
  - destruct com; [apply andb_prop in Hc as [H1 H2]; rewrite go_nonl by exact H1; apply IH, H2|].
    destruct (is_comment s) eqn:Es; [apply andb_prop in Hc as [H1 H2]; rewrite go_line by assumption; apply IH, H2|].
    apply andb_prop in Hc as [Hc H3]. apply andb_prop in Hc as [H1 H2].
    rewrite <- (IH false H3). apply lex_app; [exact H1 | exact (safe_first _ _ _ H H2)].
  - rewrite <- (IH false Hc). destruct com; [reflexivity|]. cbn [go]. change (is_word newline) with false.
    change (is_ws newline) with true. cbv iota. apply more_nil_l.
  - apply andb_prop in Hc as [Hn Hc]. destruct com; [discriminate|]. rewrite go_sp. apply IH, Hc.
  - apply andb_prop in Hc as [Hn Hc]. destruct com; [discriminate|]. rewrite <- (IH false Hc). cbn [go].
    change (is_word newline) with false. change (is_ws newline) with true. cbv iota. apply more_nil_l.
Qed.
Lemma render_lex d width : wfdoc d = true -> chain false (datoms d) = true ->
  lex (render width d) = toks false (datoms d).
Proof.
  intros W Hc. unfold render. destruct (render_R d W width Flat 0) as (y & Hy & Hi).
  rewrite (lex_ind _ _ _ Hi). apply (lex_R _ _ Hy false Hc).
Qed.

(** ** Printing *)
Definition fol (k : list atom) : bool := match fc k with Some c => negb (is_word c) | None => true end.
(** The atoms print the tokens, if what follows does not start with a letter. *)
Definition pr (a : list atom) (T : list token) : Prop := forall k, fol k = true -> chain false k = true ->
  chain false (a ++ k) = true /\ toks false (a ++ k) = more (Some T) (toks false k).
(** The same, whatever follows. *)
Definition prc (a : list atom) (T : list token) : Prop := forall k, chain false k = true ->
  chain false (a ++ k) = true /\ toks false (a ++ k) = more (Some T) (toks false k).
Definition closed (c : ascii) : bool :=
  negb (is_word c) && negb (c =? "/")%char && negb (existsb (fun x => (fst (fst x) =? c)%char) two_table).
Lemma closed_joins c d : closed c = true -> joins c d = false.
Proof.
  unfold closed. intro H. apply andb_prop in H as [H H3]. apply andb_prop in H as [H1 H2].
  apply negb_true_iff in H1, H2, H3. unfold joins, slashes. rewrite H1, H2. cbn [andb orb].
  unfold two. destruct (find _ two_table) as [x|] eqn:E; [|reflexivity].
  apply find_some in E as [Hin Hx]. apply andb_prop in Hx as [Hx _].
  assert (existsb (fun x => (fst (fst x) =? c)%char) two_table = true) by (apply existsb_exists; eauto). congruence.
Qed.
Definition closes (s : string) : bool := match lastc s with Some c => closed c | None => true end.
Lemma prc_txt s T : is_comment s = false -> noslash s = true -> closes s = true -> lex s = Some T -> prc [AT s] T.
Proof.
  intros H1 H2 H3 H4 k Hk. cbn [app chain toks]. rewrite H1, H2, H4. split; [|reflexivity].
  unfold closes in H3. destruct (lastc s) as [c|]; [|exact Hk]. unfold safe. destruct (fc k); [|exact Hk].
  rewrite closed_joins by exact H3. exact Hk.
Qed.
Lemma allw_comment s : allw s = true -> is_comment s = false.
Proof.
  destruct (is_comment s) eqn:E; [|reflexivity]. apply comment_form in E as [r ->]. discriminate.
Qed.
Lemma word_join c d : is_word c = true -> is_word d = false -> joins c d = false.
Proof.
  intros Hc Hd. unfold joins, slashes. rewrite Hd, andb_false_r, (word_not_slash c Hc). cbn [orb andb].
  unfold two. destruct (find _ two_table) as [x|] eqn:E; [|reflexivity].
  apply find_some in E as [Hin Hx]. apply andb_prop in Hx as [Hx _]. apply Ascii.eqb_eq in Hx. subst c.
  repeat destruct Hin as [<- | Hin]; try discriminate. destruct Hin.
Qed.
Lemma pr_word s t : allw s = true -> word s = Some t -> pr [AT s] [t].
Proof.
  intros Hw E k Hf Hk. cbn [app chain toks]. rewrite (allw_comment s Hw), (allw_noslash s Hw), (lex_word s t Hw E).
  split; [|reflexivity]. rewrite Hk, andb_true_r. cbn [andb].
  destruct (lastc s) as [c|] eqn:El; [|reflexivity]. unfold fol in Hf. destruct (fc k) as [d|]; [|reflexivity].
  apply negb_true_iff in Hf. cbn. rewrite word_join; [reflexivity | exact (lastc_word s c Hw El) | exact Hf].
Qed.
Lemma prc_pr a T : prc a T -> pr a T.
Proof. intros H k _ Hk. exact (H k Hk). Qed.
Lemma prc_nil : prc [] [].
Proof. intros k Hk. split; [exact Hk | symmetry; apply more_nil_l]. Qed.
Lemma prc_line : prc [AL] [].
Proof. intros k Hk. split; [exact Hk | symmetry; apply more_nil_l]. Qed.
Lemma prc_soft : prc [AS] [].
Proof. intros k Hk. split; [exact Hk | symmetry; apply more_nil_l]. Qed.
Lemma more_app a b c : more (Some a) (more (Some b) c) = more (Some (a ++ b)) c.
Proof. destruct c; cbn; [rewrite app_assoc|]; reflexivity. Qed.
Definition folw (b : list atom) : Prop := forall k, fol (b ++ k) = true.
Lemma cc a b T U : prc a T -> prc b U -> prc (a ++ b) (T ++ U).
Proof.
  intros Ha Hb k Hk. destruct (Hb k Hk) as [B1 B2]. destruct (Ha (b ++ k) B1) as [A1 A2].
  rewrite <- app_assoc, A1, A2, B2, more_app. auto.
Qed.
Lemma cp a b T U : prc a T -> pr b U -> pr (a ++ b) (T ++ U).
Proof.
  intros Ha Hb k Hf Hk. destruct (Hb k Hf Hk) as [B1 B2]. destruct (Ha (b ++ k) B1) as [A1 A2].
  rewrite <- app_assoc, A1, A2, B2, more_app. auto.
Qed.
Lemma pc a b T U : pr a T -> folw b -> prc b U -> prc (a ++ b) (T ++ U).
Proof.
  intros Ha Hf Hb k Hk. destruct (Hb k Hk) as [B1 B2]. destruct (Ha (b ++ k) (Hf k) B1) as [A1 A2].
  rewrite <- app_assoc, A1, A2, B2, more_app. auto.
Qed.
Lemma pp a b T U : pr a T -> folw b -> pr b U -> pr (a ++ b) (T ++ U).
Proof.
  intros Ha Hf Hb k Hfk Hk. destruct (Hb k Hfk Hk) as [B1 B2]. destruct (Ha (b ++ k) (Hf k) B1) as [A1 A2].
  rewrite <- app_assoc, A1, A2, B2, more_app. auto.
Qed.
Ltac txt := apply prc_txt; reflexivity.
Ltac kwd := apply pr_word; reflexivity.
Ltac flw := intro; reflexivity.

Lemma idok_word x : idok x = true -> allw x = true /\ word x = Some (TId x).
Proof.
  unfold idok. intro H. apply andb_prop in H as [H1 H2]. split; [exact H1|].
  destruct (word x) as [[| y|]|]; try discriminate. apply String.eqb_eq in H2. congruence.
Qed.
Lemma pr_id x : idok x = true -> pr [AT x] [TId x].
Proof. intro H. apply idok_word in H as [H1 H2]. apply pr_word; assumption. Qed.
Lemma suf_allw s : suffix_ok s = true -> allw (suftext s) = true.
Proof.
  destruct s as [x|]; [|reflexivity]. cbn. destruct (x =? "felt")%string eqn:E; [apply String.eqb_eq in E; subst; reflexivity|].
  destruct (x =? "u32")%string eqn:E2; [apply String.eqb_eq in E2; subst; reflexivity | discriminate].
Qed.
Lemma allw_app a b : allw a = true -> allw b = true -> allw (a +++ b) = true.
Proof. induction a as [|c a IH]; cbn; [auto|]. intros H Hb. apply andb_prop in H as [-> H]. auto. Qed.
Lemma pr_lit v s : numok v = true -> suffix_ok s = true -> pr [AT (dec v +++ suftext s)] [TNum v s].
Proof.
  intros Hv Hs. apply pr_word; [|apply word_number; assumption].
  apply allw_app; [apply alld_allw, dec_digits | apply suf_allw, Hs].
Qed.
Lemma pr_num v : numok v = true -> pr [AT (dec v)] [TNum v None].
Proof. intro H. pose proof (pr_lit v None H eq_refl) as P. cbn [suftext] in P. rewrite app_nil_s in P. exact P. Qed.

(** Lists separated by commas. *)
Lemma commas_nil : datoms (commas []) = [].
Proof. reflexivity. Qed.
Lemma commas_cons {A} (f : A -> doc) a b l :
  datoms (commas (map f (a :: b :: l))) = datoms (f a) ++ [AT ", "] ++ datoms (commas (map f (b :: l))).
Proof. reflexivity. Qed.
Lemma commas_one {A} (f : A -> doc) a : datoms (commas (map f [a])) = datoms (f a).
Proof. cbn. apply app_nil_r. Qed.
Lemma pr_commas {A} (f : A -> doc) (g : A -> list token) l :
  Forall (fun a => pr (datoms (f a)) (g a)) l -> pr (datoms (commas (map f l))) (psep KComma (map g l)).
Proof.
  induction l as [|a l IH]; intro H; [apply prc_pr, prc_nil|]. inversion H as [|? ? Ha Hl]; subst.
  destruct l as [|b l].
  - rewrite commas_one. exact Ha.
  - rewrite commas_cons. change (psep KComma (map g (a :: b :: l))) with (g a ++ [K KComma] ++ psep KComma (map g (b :: l))).
    apply pp; [exact Ha | flw |]. apply cp; [txt | apply IH, Hl].
Qed.
Lemma pr_parens d T : pr (datoms d) T -> prc (datoms (parens d)) (K KLParen :: T ++ [K KRParen]).
Proof.
  intro H. unfold parens. cbn [datoms flat_map app]. rewrite app_nil_r || idtac.
  change (AT "(" :: datoms d ++ [AT ")"]) with ([AT "("] ++ (datoms d ++ [AT ")"])).
  change (K KLParen :: T ++ [K KRParen]) with ([K KLParen] ++ (T ++ [K KRParen])).
  apply cc; [txt|]. apply pc; [exact H | flw | txt].
Qed.

(** Types. *)
Lemma pr_named n : named_ok n = true -> pr (datoms (fmt_named n)) [TId (named_text n)].
Proof.
  destruct n as [| | |x]; intro H; try kwd. cbn in H. apply andb_prop in H as [H _]. apply pr_id, H.
Qed.
Lemma pr_ty t : wfty t = true -> pr (datoms (fmt_ty t)) (pty t).
Proof.
  induction t as [n | t IH | ts IH | t n IH] using ty_ind2; cbn [wfty fmt_ty pty]; intro W.
  - apply pr_named, W.
  - cbn [datoms flat_map]. rewrite app_nil_r || idtac. apply pp; [apply IH, W | flw | apply prc_pr; txt].
  - apply prc_pr, pr_parens, pr_commas. rewrite Forall_forall in *. intros x Hx. apply IH; [exact Hx|].
    exact (forallb_in _ _ _ W Hx).
  - apply andb_prop in W as [W1 W2]. cbn [datoms flat_map].
    change (K KLBrack :: pty t ++ [K KSemi; TNum n None; K KRBrack]) with ([K KLBrack] ++ pty t ++ [K KSemi] ++ [TNum n None] ++ [K KRBrack]).
    apply prc_pr, cc; [txt|]. apply pc; [apply IH, W1 | flw |]. apply cc; [txt|]. apply pc; [apply pr_num, W2 | flw | txt].
Qed.

(** Expressions. *)
Definition startE (c : ascii) : bool := is_word c || existsb (Ascii.eqb c) ["("; "["; "!"; "-"]%char.
Lemma first_id x : idok x = true -> exists c, firstc x = Some c /\ is_word c = true.
Proof.
  intro H. apply idok_word in H as [H1 H2]. destruct x as [|c x]; [discriminate|]. cbn in H1. apply andb_prop in H1 as [H1 _].
  exists c. auto.
Qed.
Lemma fc_app a b : fc a <> None -> fc (a ++ b) = fc a.
Proof.
  induction a as [|[s| |] a IH]; cbn; intro H; try reflexivity; [congruence|]. destruct (firstc s); [reflexivity | auto].
Qed.
Lemma expr_first e : wfe e = true -> exists c, fc (datoms (fmt_expr e)) = Some c /\ startE c = true.
Proof.
  induction e using expr_ind2; cbn [wfe fmt_expr datoms flat_map]; intro W;
    repeat match goal with W : _ && _ = true |- _ => apply andb_prop in W as [W ?] end;
    try (match goal with IH : _ -> exists c, fc (datoms (fmt_expr ?a)) = Some c /\ _ |- exists c, fc (datoms (fmt_expr ?a) ++ _) = _ /\ _ =>
      destruct (IH ltac:(assumption)) as (c & E & Hc); exists c; rewrite fc_app by congruence; auto end).
  - destruct (dec_nonempty v) as (c & r & E & Hc). rewrite E. exists c. split; [reflexivity|].
    unfold startE, is_word. rewrite Hc, orb_true_r. reflexivity.
  - destruct b; eexists; split; reflexivity.
  - destruct (first_id x W) as (c & E & Hc). exists c. cbn. rewrite E. unfold startE. rewrite Hc. auto.
  - destruct o; eexists; split; reflexivity.
  - destruct (first_id n W) as (c & E & Hc). exists c. cbn. rewrite E. unfold startE. rewrite Hc. auto.
  - eexists; split; reflexivity.
  - eexists; split; reflexivity.
  - eexists; split; reflexivity.
  - eexists; split; reflexivity.
  - eexists; split; reflexivity.
Qed.
Lemma un_safe o c : startE c = true -> safe (lastc (uop_text o)) (Some c) = true.
Proof.
  intro H. destruct o; cbn [uop_text lastc safe]; destruct c as [[] [] [] [] [] [] [] []]; try reflexivity; discriminate.
Qed.
Lemma pr_un o e T : wfe e = true -> pr (datoms (fmt_expr e)) T ->
  pr (AT (uop_text o) :: datoms (fmt_expr e)) (K (ukw o) :: T).
Proof.
  intros W H k Hf Hk. destruct (H k Hf Hk) as [H1 H2]. destruct (expr_first e W) as (c & Ec & Hc).
  cbn [app chain toks]. rewrite fc_app by congruence. rewrite Ec, un_safe by exact Hc. rewrite H1, H2.
  destruct o; cbn [uop_text is_comment]; (split; [reflexivity|]); destruct (toks false k); reflexivity.
Qed.
Lemma pr_op o : prc [AS; AT (bop_text o); AS] [K (bkw o)].
Proof. intros k Hk. destruct o; cbn; rewrite Hk; split; try reflexivity; destruct (toks false k); reflexivity. Qed.
Lemma pr_expr e : wfe e = true -> pr (datoms (fmt_expr e)) (pe e).
Proof.
  induction e as [v s|b|x|o a Ha|o l r Hl Hr|f es Hf Hes|a f Ha|a i Ha Hi|n fs Hfs|es Hes|a i Ha|es Hes|a n Ha|a t Ha|t n Hn|a Ha]
    using expr_ind2; cbn [wfe]; intro W;
    repeat match goal with W : _ && _ = true |- _ => apply andb_prop in W as [W ?] end.
  - apply pr_lit; assumption.
  - destruct b; kwd.
  - apply pr_id, W.
  - cbn [fmt_expr datoms flat_map app pe]. rewrite app_nil_r. apply pr_un; auto.
  - cbn [fmt_expr datoms flat_map pe]. rewrite app_nil_r.
    change (datoms (fmt_expr l) ++ [AS] ++ [AT (bop_text o)] ++ [AS] ++ datoms (fmt_expr r))
      with (datoms (fmt_expr l) ++ [AS; AT (bop_text o); AS] ++ datoms (fmt_expr r)).
    change (pe l ++ K (bkw o) :: pe r) with (pe l ++ [K (bkw o)] ++ pe r).
    apply pp; [auto | flw |]. apply cp; [apply pr_op | auto].
  - cbn [fmt_expr datoms flat_map pe]. rewrite app_nil_r. apply pp; [auto | flw |].
    apply prc_pr, pr_parens, pr_commas. rewrite Forall_forall in *. intros x Hx. apply Hes; [exact Hx|].
    eapply forallb_in; eauto.
  - cbn [fmt_expr datoms flat_map pe]. change (pe a ++ [K KDot; TId f]) with (pe a ++ [K KDot] ++ [TId f]).
    apply pp; [auto | flw |]. apply cp; [txt | apply pr_id; assumption].
  - cbn [fmt_expr datoms flat_map pe]. change (pe a ++ K KLBrack :: pe i ++ [K KRBrack]) with (pe a ++ [K KLBrack] ++ pe i ++ [K KRBrack]).
    apply pp; [auto | flw |]. apply prc_pr, cc; [txt|]. apply pc; [auto | flw | txt].
  - cbn [fmt_expr pe]. unfold braces. cbn [datoms flat_map]. rewrite app_nil_r.
    change (TId n :: K KLBrace :: psep KComma (map (fun fe => TId (fst fe) :: K KColon :: pe (snd fe)) fs) ++ [K KRBrace])
      with ([TId n] ++ [] ++ [K KLBrace] ++ psep KComma (map (fun fe => TId (fst fe) :: K KColon :: pe (snd fe)) fs) ++ [K KRBrace]).
    apply pp; [apply pr_id, W | flw |]. apply prc_pr, cc; [txt|]. apply cc; [txt|].
    apply pc; [|flw | txt]. apply pr_commas. rewrite Forall_forall in *. intros [x e] Hx. cbn [fst snd].
    pose proof (forallb_in _ _ _ H Hx) as Wx. cbn in Wx. apply andb_prop in Wx as [W1 W2].
    cbn [datoms flat_map]. rewrite app_nil_r. change (TId x :: K KColon :: pe e) with ([TId x] ++ [K KColon] ++ pe e).
    apply pp; [apply pr_id, W1 | flw |]. apply cp; [txt | apply (Hfs _ Hx), W2].
  - cbn [fmt_expr pe]. apply prc_pr, pr_parens, pr_commas. rewrite Forall_forall in *. intros x Hx. apply Hes; [exact Hx|].
    eapply forallb_in; eauto.
  - cbn [fmt_expr datoms flat_map pe]. change (pe a ++ [K KDot; TNum i None]) with (pe a ++ [K KDot] ++ [TNum i None]).
    apply pp; [auto | flw |]. apply cp; [txt | apply pr_num; assumption].
  - cbn [fmt_expr datoms flat_map pe].
    change (K KLBrack :: psep KComma (map pe es) ++ [K KRBrack]) with ([K KLBrack] ++ psep KComma (map pe es) ++ [K KRBrack]).
    apply prc_pr, cc; [txt|]. apply pc; [|flw | txt]. apply pr_commas. rewrite Forall_forall in *. intros x Hx.
    apply Hes; [exact Hx|]. eapply forallb_in; eauto.
  - cbn [fmt_expr datoms flat_map pe].
    change (K KLBrack :: pe a ++ [K KSemi; TNum n None; K KRBrack]) with ([K KLBrack] ++ pe a ++ [K KSemi] ++ [TNum n None] ++ [K KRBrack]).
    apply prc_pr, cc; [txt|]. apply pc; [auto | flw |]. apply cc; [txt|]. apply pc; [apply pr_num; assumption | flw | txt].
  - cbn [fmt_expr datoms flat_map pe]. rewrite app_nil_r. change (pe a ++ K KAs :: pty t) with (pe a ++ [K KAs] ++ pty t).
    apply pp; [auto | flw |]. apply cp; [txt | apply pr_ty; assumption].
  - cbn [fmt_expr datoms flat_map pe].
    change (K KNew :: pty t ++ K KLBrack :: pe n ++ [K KRBrack]) with ([K KNew] ++ pty t ++ [K KLBrack] ++ pe n ++ [K KRBrack]).
    apply prc_pr, cc; [txt|]. apply pc; [apply pr_ty; assumption | flw |]. apply cc; [txt|]. apply pc; [auto | flw | txt].
  - cbn [fmt_expr pe]. apply prc_pr, pr_parens. auto.
Qed.
Lemma pr_pat p : wfp p = true -> pr (datoms (fmt_pat p)) (ppat p).
Proof.
  induction p as [x | ps IH] using pat_ind2; cbn [wfp fmt_pat ppat]; intro W; [apply pr_id, W|].
  apply andb_prop in W as [_ W]. change (Concat [Text "("; join (Text ", ") (map fmt_pat ps); Text ")"]) with (parens (commas (map fmt_pat ps))).
  apply prc_pr, pr_parens, pr_commas. rewrite Forall_forall in *. intros x Hx. apply IH; [exact Hx|]. eapply forallb_in; eauto.
Qed.

(** Statements. *)
Lemma stmt_ind3 (Q : stmt -> Prop) :
  (forall p t e, Q (SLet p t e)) -> (forall c, Q (SConst c)) -> (forall l r, Q (SAssign l r)) ->
  (forall o, Q (SReturn o)) -> (forall c a b, Q a -> (forall x, b = Some x -> Q x) -> Q (SIf c a b)) ->
  (forall e, Q (SExpr e)) -> (forall l, Forall Q l -> Q (SBlock l)) -> (forall b, Q b -> Q (SLoop b)) ->
  (forall c b, Q b -> Q (SWhile c b)) -> (forall i c s b, Q i -> Q s -> Q b -> Q (SFor i c s b)) ->
  Q SBreak -> Q SContinue -> forall s, Q s.
Proof.
  intros. induction s using stmt_ind2; auto.
  - apply H3; [assumption | discriminate].
  - apply H3; [assumption | intros x E; injection E as <-; assumption].
Qed.
Lemma pc_const c : wfc c = true -> prc (datoms (fmt_const c)) (pconst c).
Proof.
  unfold wfc. intro W. apply andb_prop in W as [W W3]. apply andb_prop in W as [W1 _].
  unfold fmt_const, pconst. cbn [datoms flat_map].
  change (K KConst :: TId (c_name c) :: K KEq :: pe (c_val c) ++ [K KSemi])
    with ([K KConst] ++ [] ++ [TId (c_name c)] ++ [K KEq] ++ pe (c_val c) ++ [K KSemi]).
  apply pc; [kwd | flw |]. apply cc; [txt|]. apply pc; [apply pr_id, W1 | flw |]. apply cc; [txt|].
  apply pc; [apply pr_expr, W3 | flw | txt].
Qed.
Lemma pr_step iw s : is_simple s = true -> wfs s = true ->
  pr (datoms (match s with SExpr e => fmt_expr e | _ => strip_semi (fmt_stmt iw s) end)) (psimple s).
Proof.
  intros Hs W. destruct s; try discriminate; cbn [wfs psimple] in *.
  - apply andb_prop in W as [W1 W2]. cbn [fmt_stmt strip_semi].
    assert (E : strip_last [fmt_expr l; Text " = "; fmt_expr r; Text ";"] = [fmt_expr l; Text " = "; fmt_expr r])
      by (destruct (fmt_expr l), (fmt_expr r); reflexivity).
    rewrite E. cbn [datoms flat_map]. rewrite app_nil_r. change (pe l ++ K KEq :: pe r) with (pe l ++ [K KEq] ++ pe r).
    apply pp; [apply pr_expr, W1 | flw |]. apply cp; [txt | apply pr_expr, W2].
  - apply pr_expr, W.
Qed.
Lemma pc_stmt iw s : wfs s = true -> prc (datoms (fmt_stmt iw s)) (ps s).
Proof.
  induction s as [p t e|c|l r|o|c a b IHa IHb|e|l IH|b IH|c b IH|i c st b IHi IHst IHb| |] using stmt_ind3; cbn [wfs]; intro W.
  - apply andb_prop in W as [W W3]. apply andb_prop in W as [W1 W2].
    cbn [fmt_stmt ps datoms]. rewrite !flat_map_app. cbn [flat_map datoms].
    change (K KLet :: ppat p ++ pann t ++ K KEq :: pe e ++ [K KSemi]) with ([K KLet] ++ [] ++ ppat p ++ pann t ++ [K KEq] ++ pe e ++ [K KSemi]).
    rewrite app_nil_r, <- !app_assoc. apply pc; [kwd | flw |]. apply cc; [txt|].
    assert (Hr : prc ([AT " = "] ++ datoms (fmt_expr e) ++ [AT ";"]) ([K KEq] ++ pe e ++ [K KSemi])).
    { apply cc; [txt|]. apply pc; [apply pr_expr, W3 | flw | txt]. }
    apply pc; [apply pr_pat, W1 | |].
    + destruct t; flw.
    + destruct t as [t|]; cbn [flat_map pann datoms].
      * change (K KColon :: pty t) with ([K KColon] ++ pty t). rewrite app_nil_r, <- !app_assoc.
        apply cc; [txt|]. apply pc; [apply pr_ty, W2 | flw | exact Hr].
      * exact Hr.
  - apply pc_const, W.
  - apply andb_prop in W as [W1 W2]. cbn [fmt_stmt ps psimple datoms flat_map]. rewrite <- app_assoc.
    change ((K KEq :: pe r) ++ [K KSemi]) with ([K KEq] ++ pe r ++ [K KSemi]).
    apply pc; [apply pr_expr, W1 | flw |]. apply cc; [txt|]. apply pc; [apply pr_expr, W2 | flw | txt].
  - cbn [fmt_stmt ps datoms]. rewrite !flat_map_app. cbn [flat_map datoms].
    destruct o as [e|]; cbn [flat_map datoms all_opt] in *.
    + change (K KReturn :: pe e ++ [K KSemi]) with ([K KReturn] ++ [] ++ pe e ++ [K KSemi]). rewrite app_nil_r, <- app_assoc.
      apply pc; [kwd | flw |]. apply cc; [txt|]. rewrite app_nil_r. apply pc; [apply pr_expr, W | flw | txt].
    + change (K KReturn :: [] ++ [K KSemi]) with ([K KReturn] ++ [K KSemi]). apply pc; [kwd | flw | txt].
  - apply andb_prop in W as [W W3]. apply andb_prop in W as [W1 W2].
    cbn [fmt_stmt ps datoms]. rewrite !flat_map_app. cbn [flat_map datoms].
    change (K KIf :: pe c ++ ps a ++ match b with Some b => K KElse :: ps b | None => [] end)
      with ([K KIf] ++ [] ++ pe c ++ [] ++ ps a ++ match b with Some b => K KElse :: ps b | None => [] end).
    rewrite app_nil_r, <- !app_assoc. apply pc; [kwd | flw |]. apply cc; [txt|]. apply pc; [apply pr_expr, W1 | flw |].
    apply cc; [txt|]. apply cc; [apply IHa, W2|]. destruct b as [b|]; [|apply prc_nil].
    apply andb_prop in W3 as [_ W3]. cbn [flat_map datoms]. rewrite app_nil_r.
    change (K KElse :: ps b) with ([] ++ [K KElse] ++ [] ++ ps b). apply cc; [txt|]. apply pc; [kwd | flw |].
    apply cc; [txt | apply (IHb b eq_refl), W3].
  - cbn [fmt_stmt ps psimple datoms flat_map]. apply pc; [apply pr_expr, W | flw | txt].
  - cbn [fmt_stmt ps datoms]. change (K KLBrace :: flat_map ps l ++ [K KRBrace]) with ([K KLBrace] ++ flat_map ps l ++ [K KRBrace]).
    rewrite !flat_map_app. apply cc; [txt|]. apply cc; [|txt].
    assert (Hl : prc (datoms (Concat (map (fun s => Concat [Line; fmt_stmt iw s]) l))) (flat_map ps l)).
    { clear - IH W. induction l as [|s l IHl]; [apply prc_nil|]. inversion IH as [|? ? Hs Hl]; subst.
      cbn [forallb] in W. apply andb_prop in W as [W1 W2]. cbn [map datoms flat_map]. rewrite app_nil_r.
      apply cc; [|apply IHl; assumption]. change (ps s) with ([] ++ ps s). change (datoms Line) with [AL].
      apply cc; [apply prc_line | apply Hs, W1]. }
    destruct l as [|s l]; [apply prc_nil|]. cbn [flat_map datoms] in *. rewrite <- (app_nil_r (ps s ++ flat_map ps l)).
    apply cc; [exact Hl | apply prc_line].
  - cbn [fmt_stmt ps datoms flat_map]. rewrite app_nil_r. change (K KLoop :: ps b) with ([K KLoop] ++ [] ++ ps b).
    apply pc; [kwd | flw |]. apply cc; [txt | apply IH, W].
  - apply andb_prop in W as [W1 W2]. cbn [fmt_stmt ps datoms flat_map]. rewrite app_nil_r.
    change (K KWhile :: pe c ++ ps b) with ([K KWhile] ++ [] ++ pe c ++ [] ++ ps b).
    apply pc; [kwd | flw |]. apply cc; [txt|]. apply pc; [apply pr_expr, W1 | flw |]. apply cc; [txt | apply IH, W2].
  - repeat match goal with W : _ && _ = true |- _ => apply andb_prop in W as [W ?] end.
    cbn [fmt_stmt ps datoms flat_map]. rewrite app_nil_r.
    change (K KFor :: K KLParen :: ps i ++ pe c ++ K KSemi :: psimple st ++ K KRParen :: ps b)
      with ([K KFor] ++ [] ++ [K KLParen] ++ ps i ++ [] ++ pe c ++ [K KSemi] ++ [] ++ psimple st ++ [K KRParen] ++ [] ++ ps b).
    apply pc; [kwd | flw |]. apply cc; [txt|]. apply cc; [txt|]. apply cc; [auto|]. apply cc; [txt|].
    apply pc; [apply pr_expr; assumption | flw |]. apply cc; [txt|]. apply cc; [txt|].
    apply pc; [apply pr_step; assumption | flw |]. apply cc; [txt|]. apply cc; [txt | auto].
  - txt.
  - txt.
Qed.

(** ** Comments *)
(** A comment as it stands in the source. *)
Definition cok (c : string) : bool := is_comment c && nonl c.
(** The same as [prc] when a new line follows. *)
Definition prl (a : list atom) (T : list token) : Prop := forall k, new_line k = true -> chain false k = true ->
  chain false (a ++ k) = true /\ toks false (a ++ k) = more (Some T) (toks false k).
Lemma prc_prl a T : prc a T -> prl a T.
Proof. intros H k _ Hk. exact (H k Hk). Qed.
Lemma cl a b T U : prc a T -> prl b U -> prl (a ++ b) (T ++ U).
Proof.
  intros Ha Hb k Hf Hk. destruct (Hb k Hf Hk) as [B1 B2]. destruct (Ha (b ++ k) B1) as [A1 A2].
  rewrite <- app_assoc, A1, A2, B2, more_app. auto.
Qed.
Lemma lc a b T U : prl a T -> prc ([AL] ++ b) U -> prc (a ++ [AL] ++ b) (T ++ U).
Proof.
  intros Ha Hb k Hk. destruct (Hb k Hk) as [B1 B2]. destruct (Ha (([AL] ++ b) ++ k) eq_refl B1) as [A1 A2].
  rewrite <- app_assoc, A1, A2, B2, more_app. auto.
Qed.
Lemma lead_ok cs : forallb cok cs = true -> prc (flat_map datoms (flat_map (fun c => [Text c; Line]) cs)) [].
Proof.
  induction cs as [|c cs IH]; [intros _; apply prc_nil|]. cbn [forallb]. intro H. apply andb_prop in H as [H1 H2].
  apply andb_prop in H1 as [H1 H3]. intros k Hk. destruct (IH H2 k Hk) as [A B]. cbn [flat_map datoms app chain toks].
  rewrite H1, H3, A, B. auto.
Qed.
Lemma trail_ok cs : forallb cok cs = true -> forall com, (com = true -> nonl " " = true) -> forall k, new_line k = true -> chain false k = true ->
  chain com (flat_map datoms (flat_map (fun c => [Text " "; Text c]) cs) ++ k) = true /\
  toks com (flat_map datoms (flat_map (fun c => [Text " "; Text c]) cs) ++ k) = toks false k.
Proof.
  induction cs as [|c cs IH]; intros H com _ k Hn Hk.
  - destruct k as [|[| |] k]; try discriminate. destruct com; auto.
  - cbn [forallb] in H. apply andb_prop in H as [H1 H2]. apply andb_prop in H1 as [H1 H3].
    destruct (IH H2 true ltac:(reflexivity) k Hn Hk) as [A B]. cbn [flat_map datoms app chain toks].
    change (is_comment " ") with false. rewrite H1, H3, A, B. change (nonl " ") with true. change (noslash " ") with true.
    change (lex " ") with (Some (@nil token)). rewrite more_nil_l.
    destruct com; [auto|]. split; [|reflexivity]. cbn [fc andb]. destruct (firstc c) as [d|] eqn:Ed.
    + change (safe (lastc " ") (Some d)) with (negb (joins space d)). rewrite closed_joins by reflexivity. reflexivity.
    + destruct c; discriminate.
Qed.
Lemma prl_trail cs : forallb cok cs = true -> prl (flat_map datoms (flat_map (fun c => [Text " "; Text c]) cs)) [].
Proof. intros H k Hn Hk. rewrite more_nil_l. apply trail_ok; auto. Qed.

Definition icok (n : nat) (cm : icomments) : Prop :=
  forallb cok (ic_lead cm) = true /\ forallb cok (ic_trail cm) = true /\
  forall i, i < n -> forallb cok (fst (ic_stmt cm i)) = true /\ forallb cok (snd (ic_stmt cm i)) = true.

Lemma pl_body_stmt iw cm s : wfs s = true -> forallb cok (fst cm) = true -> forallb cok (snd cm) = true ->
  prl (datoms (fmt_body_stmt iw cm s)) (ps s).
Proof.
  intros W H1 H2. destruct cm as [lead trail]. cbn [fst snd] in *. unfold fmt_body_stmt. cbn [fst snd].
  set (d := match lead with [] => fmt_stmt iw s | c0 :: l0 => with_leading (c0 :: l0) (fmt_stmt iw s) end).
  assert (Hd : prc (datoms d) (ps s)).
  { subst d. destruct lead as [|c lead]; [apply pc_stmt, W|]. unfold with_leading. cbn [datoms]. rewrite flat_map_app.
    change (ps s) with ([] ++ ps s). apply cc; [apply lead_ok, H1|]. cbn [flat_map]. rewrite app_nil_r. apply pc_stmt, W. }
  destruct trail as [|c trail]; [apply prc_prl, Hd|]. cbn [forallb] in H2. apply andb_prop in H2 as [H2 _].
  unfold with_eol. cbn [datoms flat_map]. rewrite <- (app_nil_r (ps s)). apply cl; [exact Hd|].
  apply (prl_trail [c]). cbn. rewrite H2. reflexivity.
Qed.
Lemma pl_body iw cm l n : forallb wfs l = true ->
  (forall i, i < n + List.length l -> forallb cok (fst (ic_stmt cm i)) = true /\ forallb cok (snd (ic_stmt cm i)) = true) ->
  prc (flat_map datoms (mapi (fun i s => Concat [Line; fmt_body_stmt iw (ic_stmt cm i) s]) n l) ++ [AL]) (flat_map ps l).
Proof.
  revert n. induction l as [|s l IH]; intros n W H; [apply prc_line|]. cbn [forallb] in W. apply andb_prop in W as [W1 W2].
  cbn [mapi flat_map datoms List.length] in *. rewrite app_nil_r, <- !app_assoc.
  destruct (H n ltac:(lia)) as [H1 H2].
  pose proof (pl_body_stmt iw (ic_stmt cm n) s W1 H1 H2) as Hs.
  specialize (IH (S n) W2 ltac:(intros i Hi; apply H; lia)).
  change (ps s ++ flat_map ps l) with ([] ++ ps s ++ flat_map ps l). apply cc; [apply prc_line|].
  destruct l as [|s2 l]; [exact (lc _ [] _ [] Hs prc_line)|].
  cbn [mapi flat_map datoms app] in *. exact (lc _ _ _ _ Hs IH).
Qed.
Lemma pr_param p : wftn p = true -> pr (datoms (fmt_param p)) (ptn p).
Proof.
  destruct p as [x t]. unfold wftn, fmt_param, ptn. cbn [fst snd datoms flat_map]. intro W. apply andb_prop in W as [W1 W2].
  rewrite app_nil_r. change (TId x :: K KColon :: pty t) with ([TId x] ++ [K KColon] ++ pty t).
  apply pp; [apply pr_id, W1 | flw |]. apply cp; [txt | apply pr_ty, W2].
Qed.
(** The path of an import. *)
Lemma firstc_app a b : firstc a <> None -> firstc (a +++ b) = firstc a.
Proof. destruct a; [intro H; destruct H; reflexivity | reflexivity]. Qed.
Lemma noslash_join a b : noslash a = true -> noslash b = true -> safe (lastc a) (firstc b) = true -> noslash (a +++ b) = true.
Proof.
  induction a as [|c a IH]; intros Ha Hb Hs; [exact Hb|]. destruct a as [|d a].
  - destruct b as [|e b]; [reflexivity|]. cbn [append noslash]. cbn [lastc firstc safe] in Hs. unfold joins in Hs.
    apply negb_true_iff, orb_false_elim in Hs as [Hs _]. apply orb_false_elim in Hs as [_ Hs]. rewrite Hs. exact Hb.
  - cbn [append noslash] in *. apply andb_prop in Ha as [-> Ha]. apply IH; [exact Ha | exact Hb|].
    cbn [lastc] in *. destruct (lastc a); exact Hs.
Qed.
Lemma last_id x : idok x = true -> exists c, lastc x = Some c /\ is_word c = true.
Proof.
  intro H. apply idok_word in H as [H1 H2]. destruct (lastc x) as [c|] eqn:E.
  - exists c. split; [reflexivity | exact (lastc_word x c H1 E)].
  - destruct x as [|c x]; [discriminate|]. cbn in E. destruct (lastc x); discriminate.
Qed.
Lemma path_ok p : p <> [] -> forallb idok p = true ->
  noslash (String.concat "::" p) = true /\ is_comment (String.concat "::" p) = false /\
  lex (String.concat "::" p) = Some (psep KColons (map (fun x => [TId x]) p)) /\
  (exists c, firstc (String.concat "::" p) = Some c /\ is_word c = true) /\
  (exists c, lastc (String.concat "::" p) = Some c /\ is_word c = true).
Proof.
  induction p as [|x p IH]; intros Hn W; [congruence|]. cbn [forallb] in W. apply andb_prop in W as [W1 W2].
  pose proof (idok_word x W1) as [Ha Hw]. pose proof (first_id x W1) as (f & Hf & Hfw). pose proof (last_id x W1) as (l & Hl & Hlw).
  destruct p as [|y p].
  - change (String.concat "::" [x]) with x. change (psep KColons (map (fun x => [TId x]) [x])) with [TId x].
    split; [apply allw_noslash, Ha|]. split; [apply allw_comment, Ha|]. split; [apply lex_word; assumption|]. split; eauto.
  - destruct (IH ltac:(discriminate) W2) as (I1 & I2 & I3 & (f2 & I4 & I5) & l2 & I6 & I7).
    change (String.concat "::" (x :: y :: p)) with (x +++ "::" +++ String.concat "::" (y :: p)).
    change (psep KColons (map (fun x => [TId x]) (x :: y :: p))) with ([TId x] ++ [K KColons] ++ psep KColons (map (fun x => [TId x]) (y :: p))).
    set (q := String.concat "::" (y :: p)) in *.
    assert (Hj : safe (lastc "::") (firstc q) = true).
    { rewrite I4. cbn [lastc safe]. apply negb_true_iff. clear - I5. destruct f2 as [[] [] [] [] [] [] [] []]; try reflexivity; discriminate. }
    assert (Hx : safe (lastc x) (Some ":"%char) = true).
    { rewrite Hl. cbn. rewrite word_join by (assumption || reflexivity). reflexivity. }
    split; [|split; [|split; [|split]]].
    + apply noslash_join; [apply allw_noslash, Ha | apply noslash_join; auto | exact Hx].
    + destruct (is_comment (x +++ "::" +++ q)) eqn:E; [|reflexivity]. apply comment_form in E as [r E].
      destruct x as [|c x]; [discriminate|]. cbn in E. injection E as -> _. discriminate.
    + rewrite lex_app, (lex_word x (TId x) Ha Hw), lex_app, I3; [reflexivity | reflexivity | exact Hj | apply allw_noslash, Ha | exact Hx].
    + exists f. rewrite firstc_app by congruence. auto.
    + exists l2. rewrite !lastc_app, I6. auto.
Qed.
Lemma pr_path p : p <> [] -> forallb idok p = true -> pr [AT (String.concat "::" p)] (psep KColons (map (fun x => [TId x]) p)).
Proof.
  intros Hn W. destruct (path_ok p Hn W) as (H1 & H2 & H3 & _ & c & H4 & H5). intros k Hf Hk.
  cbn [app chain toks]. rewrite H1, H2, H3, H4. split; [|reflexivity]. rewrite Hk, andb_true_r. cbn [andb].
  unfold fol in Hf. destruct (fc k) as [d|]; [|reflexivity]. apply negb_true_iff in Hf. cbn.
  rewrite word_join by assumption. reflexivity.
Qed.
Lemma pr_colons b T c : fc b = Some c -> joins ":" c = false -> pr b T -> pr ([AT "::"] ++ b) ([K KColons] ++ T).
Proof.
  intros Hc Hj H k Hf Hk. destruct (H k Hf Hk) as [H1 H2]. rewrite <- app_assoc. cbn [app chain toks].
  rewrite fc_app by congruence. rewrite Hc, H1, H2. cbn [lastc safe]. rewrite Hj. split; [reflexivity|].
  destruct (toks false k); reflexivity.
Qed.
Lemma word_colon c : is_word c = true -> joins ":" c = false.
Proof. intro H. destruct c as [[] [] [] [] [] [] [] []]; try reflexivity; discriminate. Qed.

Lemma pl_item iw cm i n : wfi i = true -> printable_item i = true -> icok n cm ->
  n = match i with IFn f => List.length (f_body f) | _ => 0 end ->
  prl (datoms (fmt_item iw cm i)) (pitem i).
Proof.
  intros W Pr (Hlead & Htrail & Hstmt) En. unfold fmt_item.
  set (d := match i with IFn f => fmt_fn iw cm f | IStruct s => fmt_struct iw s | IConst c => fmt_const c | IUse u => fmt_use u end).
  assert (Hd : prc (datoms d) (pitem i)).
  { subst d. destruct i as [f|s|c|u]; cbn [wfi] in W.
    - repeat match goal with W : _ && _ = true |- _ => apply andb_prop in W as [W ?] end.
      unfold fmt_fn. cbn [datoms pitem]. rewrite !flat_map_app. cbn [flat_map datoms].
      change (K KFn :: TId (f_name f) :: K KLParen :: psep KComma (map ptn (f_params f)) ++ K KRParen ::
             pret (f_ret f) ++ K KLBrace :: flat_map ps (f_body f) ++ [K KRBrace])
        with ([K KFn] ++ [] ++ [TId (f_name f)] ++ [K KLParen] ++ psep KComma (map ptn (f_params f)) ++ [K KRParen] ++
             pret (f_ret f) ++ [K KLBrace] ++ flat_map ps (f_body f) ++ [K KRBrace]).
      rewrite app_nil_r, <- !app_assoc. apply pc; [kwd | flw |]. apply cc; [txt|]. apply pc; [apply pr_id, W | flw |].
      assert (Hb : prc ([AT " {"] ++ flat_map datoms (match f_body f with
             | [] => []
             | _ => [Indent iw (Concat (mapi (fun i s => Concat [Line; fmt_body_stmt iw (ic_stmt cm i) s]) 0 (f_body f))); Line]
             end) ++ [AT "}"]) ([K KLBrace] ++ flat_map ps (f_body f) ++ [K KRBrace])).
      { apply cc; [txt|]. apply cc; [|txt]. destruct (f_body f) as [|s0 l0] eqn:Eb; [apply prc_nil|]. rewrite <- Eb in *.
        cbn [flat_map datoms]. apply pl_body; [assumption|]. intros j Hj. apply Hstmt. rewrite En. exact Hj. }
      assert (Hp : prc (datoms (parens (commas (map fmt_param (f_params f))))) ([K KLParen] ++ psep KComma (map ptn (f_params f)) ++ [K KRParen])).
      { apply pr_parens, pr_commas, Forall_forall. intros x Hx. apply pr_param. eapply forallb_in; eauto. }
      rewrite (app_assoc [K KLParen]), (app_assoc _ [K KRParen]), <- (app_assoc [K KLParen]) by idtac.
      apply cc; [exact Hp|].
      destruct (is_unit (f_ret f)) eqn:Eu.
      + destruct (f_ret f) as [| |[|]|]; try discriminate. exact Hb.
      + assert (Er : pret (f_ret f) = [K KArrow] ++ pty (f_ret f)) by (destruct (f_ret f) as [| |[|]|]; try discriminate; reflexivity).
        rewrite Er. cbn [flat_map datoms]. rewrite app_nil_r, <- !app_assoc. apply cc; [txt|].
        apply pc; [apply pr_ty; assumption | flw | exact Hb].
    - apply andb_prop in W as [W1 W2]. unfold fmt_struct. cbn [datoms pitem]. rewrite !flat_map_app. cbn [flat_map datoms].
      change (K KStruct :: TId (s_name s) :: K KLBrace :: flat_map (fun p => ptn p ++ [K KComma]) (s_fields s) ++ [K KRBrace])
        with ([K KStruct] ++ [] ++ [TId (s_name s)] ++ [K KLBrace] ++ flat_map (fun p => ptn p ++ [K KComma]) (s_fields s) ++ [K KRBrace]).
      rewrite app_nil_r, <- !app_assoc. apply pc; [kwd | flw |]. apply cc; [txt|]. apply pc; [apply pr_id, W1 | flw |].
      apply cc; [txt|]. apply cc; [|txt].
      assert (Hl : prc (flat_map datoms (map (fun ft => Concat [Line; Text (fst ft); Text ": "; fmt_ty (snd ft); Text ","]) (s_fields s)))
                       (flat_map (fun p => ptn p ++ [K KComma]) (s_fields s))).
      { clear - W2. induction (s_fields s) as [|p l IHl]; [apply prc_nil|]. cbn [forallb] in W2. apply andb_prop in W2 as [W1 W2].
        cbn [map flat_map]. apply cc; [|apply IHl, W2]. unfold wftn in W1. apply andb_prop in W1 as [W1 W3].
        unfold ptn. cbn [datoms flat_map].
        change ((TId (fst p) :: K KColon :: pty (snd p)) ++ [K KComma]) with ([] ++ [TId (fst p)] ++ [K KColon] ++ pty (snd p) ++ [K KComma]).
        apply cc; [apply prc_line|]. apply pc; [apply pr_id, W1 | flw |]. apply cc; [txt|]. apply pc; [apply pr_ty, W3 | flw | txt]. }
      destruct (s_fields s) as [|p l] eqn:Ef; [apply prc_nil|]. rewrite <- Ef in *.
      cbn [flat_map datoms]. rewrite <- (app_nil_r (flat_map (fun p => ptn p ++ [K KComma]) (s_fields s))).
      apply cc; [exact Hl | apply prc_line].
    - apply pc_const, W.
    - apply andb_prop in W as [W1 W2]. unfold fmt_use. cbn [datoms flat_map pitem].
      change (K KUse :: psep KColons (map (fun x => [TId x]) (u_path u)) ++ K KColons ::
              match u_items u with USingle x => [TId x] | UList xs => K KLBrace :: psep KComma (map (fun y => [TId y]) xs) ++ [K KRBrace] end ++ [K KSemi])
        with ([K KUse] ++ [] ++ psep KColons (map (fun x => [TId x]) (u_path u)) ++ ([K KColons] ++
              match u_items u with USingle x => [TId x] | UList xs => K KLBrace :: psep KComma (map (fun y => [TId y]) xs) ++ [K KRBrace] end ++ [K KSemi])).
      apply pc; [kwd | flw |]. apply cc; [txt|]. apply pc; [apply pr_path; [|exact W1] | flw |].
      { cbn [printable_item] in Pr. destruct (u_path u); [discriminate | discriminate]. }
      apply (pc ([AT "::"] ++ datoms (match u_items u with USingle x => Text x | UList xs => braces (commas (map Text xs)) end)) [AT ";"]
               ([K KColons] ++ match u_items u with USingle x => [TId x] | UList xs => K KLBrace :: psep KComma (map (fun y => [TId y]) xs) ++ [K KRBrace] end)
               [K KSemi]); [|flw | txt]. destruct (u_items u) as [x|xs]; cbn [datoms].
      + destruct (first_id x W2) as (c & Ec & Hc). apply (pr_colons _ _ c); [cbn; rewrite Ec; reflexivity | apply word_colon, Hc | apply pr_id, W2].
      + apply (pr_colons _ _ "{"); [reflexivity | reflexivity|]. unfold braces. cbn [datoms flat_map].
        change (K KLBrace :: psep KComma (map (fun x => [TId x]) xs) ++ [K KRBrace]) with ([K KLBrace] ++ psep KComma (map (fun x => [TId x]) xs) ++ [K KRBrace]).
        apply prc_pr, cc; [txt|]. apply pc; [|flw | txt]. apply pr_commas, Forall_forall. intros x Hx. apply pr_id. eapply forallb_in; eauto. }
  set (d2 := match ic_lead cm with [] => d | c0 :: l0 => with_leading (c0 :: l0) d end).
  assert (Hd2 : prc (datoms d2) (pitem i)).
  { subst d2. destruct (ic_lead cm) as [|c0 l0] eqn:El; [exact Hd|]. rewrite <- El in *. unfold with_leading. cbn [datoms].
    rewrite flat_map_app. change (pitem i) with ([] ++ pitem i). apply cc; [apply lead_ok, Hlead|]. cbn [flat_map]. rewrite app_nil_r. exact Hd. }
  destruct (ic_trail cm) as [|c0 l0] eqn:Et; [apply prc_prl, Hd2|]. rewrite <- Et in *. unfold with_trailing. cbn [datoms flat_map].
  rewrite <- (app_nil_r (pitem i)). apply cl; [exact Hd2 | apply prl_trail; assumption].
Qed.
Definition size (i : item) : nat := match i with IFn f => List.length (f_body f) | _ => 0 end.
(** Every comment is a comment of the source: starts with two slashes and stays on its line. *)
Definition cmok (cm : comments) (m : module) : Prop :=
  forallb cok (cm_head cm) = true /\
  forall n i, nth_error m n = Some i -> icok (size i) (cm_item cm n).

Lemma pl_module iw cm m : forall n, forallb wfi m = true -> printable m = true ->
  (forall j i, nth_error m j = Some i -> icok (size i) (cm (n + j))) ->
  m <> [] -> n <> 0 ->
  prc ([AL; AL] ++ tl (tl (flat_map datoms (List.concat (mapi (fun n i => (match n with O => [] | S _ => [Line; Line] end) ++ [fmt_item iw (cm n) i]) n m)))) ++ [AL]) (pm m).
Proof.
  induction m as [|i m IH]; intros n W Pr H Hm Hn; [congruence|]. cbn [forallb] in W. apply andb_prop in W as [W1 W2].
  unfold printable in Pr. cbn [forallb] in Pr. apply andb_prop in Pr as [P1 P2].
  assert (Hi : prl (datoms (fmt_item iw (cm n) i)) (pitem i)).
  { apply (pl_item iw (cm n) i (size i)); auto. specialize (H 0 i eq_refl). rewrite Nat.add_0_r in H. exact H. }
  destruct n as [|n]; [congruence|]. cbn [mapi List.concat]. rewrite !flat_map_app. cbn [flat_map datoms app tl].
  change (AL :: AL :: ?x) with ([AL] ++ [AL] ++ x). change (pm (i :: m)) with ([] ++ [] ++ pitem i ++ pm m).
  apply cc; [apply prc_line|]. apply cc; [apply prc_line|]. rewrite app_nil_r, <- app_assoc.
  destruct m as [|i2 m].
  - cbn [mapi List.concat flat_map app]. exact (lc _ [] _ [] Hi prc_line).
  - assert (IH2 := IH (S (S n)) W2 P2 ltac:(intros j x Hj; specialize (H (S j) x Hj); rewrite <- plus_n_Sm in H; exact H) ltac:(discriminate) ltac:(discriminate)).
    cbn [mapi List.concat] in *. rewrite !flat_map_app in *. cbn [flat_map datoms app tl] in *.
    exact (lc _ _ _ _ Hi IH2).
Qed.
Lemma toks_module iw cm m : forallb wfi m = true -> printable m = true ->
  (forall j i, nth_error m j = Some i -> icok (size i) (cm j)) ->
  chain false (datoms (fmt_module iw cm m)) = true /\ toks false (datoms (fmt_module iw cm m)) = Some (pm m).
Proof.
  intros W Pr H. destruct m as [|i m]; [split; reflexivity|].
  cbn [forallb] in W. apply andb_prop in W as [W1 W2]. unfold printable in Pr. cbn [forallb] in Pr. apply andb_prop in Pr as [P1 P2].
  assert (Hi : prl (datoms (fmt_item iw (cm 0) i)) (pitem i)).
  { apply (pl_item iw (cm 0) i (size i)); auto. }
  assert (Hp : prc (datoms (fmt_module iw cm (i :: m))) (pm (i :: m))).
  { unfold fmt_module. cbn [datoms]. rewrite flat_map_app. cbn [mapi List.concat flat_map datoms app]. rewrite <- app_assoc.
    change (pm (i :: m)) with (pitem i ++ pm m). destruct m as [|i2 m]; [exact (lc _ [] _ [] Hi prc_line)|].
    assert (Hm := pl_module iw cm (i2 :: m) 1 W2 P2 ltac:(intros j x Hj; apply (H (S j) x Hj)) ltac:(discriminate) ltac:(discriminate)).
    cbn [mapi List.concat] in *. rewrite !flat_map_app in *. cbn [flat_map datoms app tl] in *.
    exact (lc _ _ _ _ Hi Hm). }
  destruct (Hp [] eq_refl) as [A B]. rewrite app_nil_r in A, B. rewrite A, B. cbn. rewrite app_nil_r. auto.
Qed.

(** ** Well-formed documents *)
Lemma wf_join l : forallb wfdoc l = true -> wfdoc (commas l) = true.
Proof.
  intro H. assert (E : forallb wfdoc (interleave (Text ", ") l) = true).
  { induction l as [|a l IH]; [reflexivity|]. cbn [forallb] in H. apply andb_prop in H as [H1 H2].
    specialize (IH H2). destruct l as [|b l].
    - cbn [interleave forallb]. rewrite H1. reflexivity.
    - change (interleave (Text ", ") (a :: b :: l)) with (a :: Text ", " :: interleave (Text ", ") (b :: l)).
      cbn [forallb wfdoc]. rewrite H1. exact IH. }
  unfold commas, join. destruct l; [reflexivity | exact E].
Qed.
Lemma wf_map {A} (f : A -> doc) l : Forall (fun a => wfdoc (f a) = true) l -> forallb wfdoc (map f l) = true.
Proof. induction 1 as [|a l H _ IH]; [reflexivity|]. cbn. rewrite H. exact IH. Qed.
Lemma wf_ty t : wfdoc (fmt_ty t) = true.
Proof.
  induction t as [n | t IH | ts IH | t n IH] using ty_ind2; cbn [fmt_ty wfdoc forallb parens]; rewrite ?IH; try reflexivity.
  - rewrite wf_join; [reflexivity | apply wf_map, IH].
Qed.
Lemma wf_expr e : wfdoc (fmt_expr e) = true.
Proof.
  induction e using expr_ind2; cbn [fmt_expr wfdoc forallb parens braces];
    repeat match goal with H : wfdoc _ = true |- _ => rewrite H end; rewrite ?wf_ty; try reflexivity;
    rewrite wf_join; try reflexivity; apply wf_map; try assumption.
  eapply Forall_impl; [|eassumption]. intros [x e] He. cbn in *. rewrite He. reflexivity.
Qed.
Lemma wf_pat p : wfdoc (fmt_pat p) = true.
Proof.
  induction p as [x | ps IH] using pat_ind2; [reflexivity|]. cbn [fmt_pat wfdoc forallb].
  change (join (Text ", ") (map fmt_pat ps)) with (commas (map fmt_pat ps)). rewrite wf_join; [reflexivity | apply wf_map, IH].
Qed.
Lemma wf_strip l : forallb wfdoc l = true -> forallb wfdoc (strip_last l) = true.
Proof.
  induction l as [|d l IH]; [reflexivity|]. cbn [forallb]. intro H. apply andb_prop in H as [H1 H2].
  destruct l as [|d2 l].
  - destruct d; cbn [strip_last forallb]; rewrite ?H1; try reflexivity. destruct (s =? ";")%string; reflexivity.
  - replace (strip_last (d :: d2 :: l)) with (d :: strip_last (d2 :: l)) by (destruct d; reflexivity).
    cbn [forallb]. rewrite H1. exact (IH H2).
Qed.
Lemma wf_semi d : wfdoc d = true -> wfdoc (strip_semi d) = true.
Proof. destruct d; intro H; try exact H; apply wf_strip, H. Qed.
Lemma wf_const c : wfdoc (fmt_const c) = true.
Proof. unfold fmt_const. cbn [wfdoc forallb]. rewrite wf_expr. reflexivity. Qed.
Lemma wf_stmt iw s : wfdoc (fmt_stmt iw s) = true.
Proof.
  induction s as [p t e|c|l r|o|c a b IHa IHb|e|l IH|b IH|c b IH|i c st b IHi IHst IHb| |] using stmt_ind3;
    cbn [fmt_stmt wfdoc]; rewrite ?forallb_app; cbn [forallb wfdoc]; rewrite ?wf_expr, ?wf_pat, ?wf_const; try reflexivity.
  - destruct t; cbn [forallb wfdoc]; rewrite ?wf_ty; reflexivity.
  - destruct o; cbn [forallb wfdoc]; rewrite ?wf_expr; reflexivity.
  - rewrite IHa. destruct b as [b|]; cbn [forallb wfdoc]; rewrite ?(IHb b eq_refl); reflexivity.
  - destruct l as [|s l]; [reflexivity|]. cbn [forallb wfdoc]. rewrite wf_map; [reflexivity|].
    eapply Forall_impl; [|exact IH]. intros x Hx. cbn [wfdoc forallb]. rewrite Hx. reflexivity.
  - rewrite IH. reflexivity.
  - rewrite IH. reflexivity.
  - rewrite IHi, IHb. assert (Hst : wfdoc (match st with SExpr e => fmt_expr e | _ => strip_semi (fmt_stmt iw st) end) = true).
    { destruct st; try (apply wf_semi; exact IHst). apply wf_expr. }
    rewrite Hst. reflexivity.
Qed.
Lemma wf_lead cs d : wfdoc d = true -> wfdoc (with_leading cs d) = true.
Proof.
  intro H. unfold with_leading. cbn [wfdoc]. rewrite forallb_app. cbn [forallb]. rewrite H. cbn [andb]. rewrite andb_true_r.
  induction cs; [reflexivity | exact IHcs].
Qed.
Lemma wf_trail cs d : wfdoc d = true -> wfdoc (with_trailing d cs) = true.
Proof. intro H. unfold with_trailing. cbn [wfdoc forallb]. rewrite H. cbn [andb]. induction cs; [reflexivity | exact IHcs]. Qed.
Lemma wf_body_stmt iw cm s : wfdoc (fmt_body_stmt iw cm s) = true.
Proof.
  unfold fmt_body_stmt. assert (H : wfdoc (match fst cm with [] => fmt_stmt iw s | c0 :: l0 => with_leading (c0 :: l0) (fmt_stmt iw s) end) = true).
  { destruct (fst cm); [|apply wf_lead]; apply wf_stmt. }
  destruct (snd cm); [exact H|]. unfold with_eol. cbn [wfdoc forallb]. rewrite H. reflexivity.
Qed.
Lemma wf_mapi {A} (f : nat -> A -> doc) l : (forall n a, wfdoc (f n a) = true) -> forall n, forallb wfdoc (mapi f n l) = true.
Proof. intro H. induction l as [|a l IH]; intro n; [reflexivity|]. cbn. rewrite H. apply IH. Qed.
Lemma wf_item iw cm i : wfdoc (fmt_item iw cm i) = true.
Proof.
  unfold fmt_item.
  set (d := match i with IFn f => fmt_fn iw cm f | IStruct s => fmt_struct iw s | IConst c => fmt_const c | IUse u => fmt_use u end).
  assert (Hd : wfdoc d = true).
  { subst d. destruct i as [f|s|c|u].
    - unfold fmt_fn. cbn [wfdoc]. rewrite !forallb_app. cbn [forallb wfdoc parens]. rewrite wf_join.
      2: { apply wf_map, Forall_forall. intros p _. unfold fmt_param. cbn [wfdoc forallb]. rewrite wf_ty. reflexivity. }
      replace (forallb wfdoc (if is_unit (f_ret f) then [] else [Text " -> "; fmt_ty (f_ret f)])) with true
        by (destruct (is_unit (f_ret f)); cbn [forallb wfdoc]; rewrite ?wf_ty; reflexivity).
      cbn [andb]. rewrite andb_true_r. destruct (f_body f) as [|s0 l0]; [reflexivity|]. cbn [forallb wfdoc].
      rewrite wf_mapi; [reflexivity|]. intros n a. cbn [wfdoc forallb]. rewrite wf_body_stmt. reflexivity.
    - unfold fmt_struct. cbn [wfdoc]. rewrite !forallb_app. cbn [forallb wfdoc andb]. rewrite andb_true_r.
      destruct (s_fields s) as [|p l]; [reflexivity|]. cbn [forallb wfdoc]. rewrite wf_map; [reflexivity|].
      apply Forall_forall. intros q _. cbn [wfdoc forallb]. rewrite wf_ty. reflexivity.
    - apply wf_const.
    - unfold fmt_use. cbn [wfdoc forallb andb]. destruct (u_items u) as [x|xs]; [reflexivity|]. cbn [wfdoc forallb braces].
      rewrite wf_join; [reflexivity|]. apply wf_map, Forall_forall. reflexivity. }
  assert (Hd2 : wfdoc (match ic_lead cm with [] => d | c0 :: l0 => with_leading (c0 :: l0) d end) = true)
    by (destruct (ic_lead cm); [|apply wf_lead]; exact Hd).
  destruct (ic_trail cm); [exact Hd2 | apply wf_trail, Hd2].
Qed.
Lemma wf_module iw cm m : wfdoc (fmt_module iw cm m) = true.
Proof.
  unfold fmt_module. cbn [wfdoc]. rewrite forallb_app. apply andb_true_intro. split; [|destruct m; reflexivity].
  generalize 0. induction m as [|i m IH]; intro n; [reflexivity|]. cbn [mapi List.concat]. rewrite !forallb_app. rewrite IH.
  cbn [forallb]. rewrite wf_item. destruct n; reflexivity.
Qed.

(** ** The formatted file *)
Lemma header_lex cs s : forallb cok cs = true -> lex (header cs +++ s) = lex s.
Proof.
  unfold header. induction cs as [|c cs IH]; intro H; [reflexivity|]. cbn [forallb] in H. apply andb_prop in H as [H1 H2].
  apply andb_prop in H1 as [H1 H3]. cbn [map].
  assert (E : String.concat "" ((c +++ String newline "") :: map (fun c => c +++ String newline "") cs)
              = c +++ String newline (String.concat "" (map (fun c => c +++ String newline "") cs))).
  { cbn [map String.concat]. destruct (map (fun c0 => c0 +++ String newline "") cs) as [|x l]; [reflexivity|].
    rewrite app_assoc_s. reflexivity. }
  rewrite E. rewrite app_assoc_s. cbn [append]. unfold lex. rewrite go_line by assumption. exact (IH H2).
Qed.
Theorem format_tokens width iw cm m : forallb wfi m = true -> printable m = true -> cmok cm m ->
  lex (format_module width iw cm m) = Some (pm m).
Proof.
  intros W Pr [Hh Hc]. unfold format_module. rewrite header_lex by exact Hh.
  destruct (toks_module iw (cm_item cm) m W Pr Hc) as [A B].
  rewrite render_lex; [exact B | apply wf_module | exact A].
Qed.
