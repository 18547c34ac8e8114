(** Reading back: the parser applied to the tokens of a syntax tree gives that tree. *)
From Coq Require Import NArith Bool Ascii String List Lia PeanoNat.
From Verif Require Import Lex Syn SynSpec Parse ParseComb.
Import ListNotations.
Open Scope bool_scope.
Open Scope list_scope.

(** ** The tokens of a syntax tree *)
Definition named_text (n : named) : string :=
  match n with NFelt => "felt" | NBool => "bool" | NU32 => "u32" | NCustom s => s end.
Fixpoint psep (k : kw) (ls : list (list token)) : list token :=
  match ls with
  | [] => []
  | l :: r => match r with [] => l | _ => l ++ K k :: psep k r end
  end.
Fixpoint pty (t : ty) : list token :=
  match t with
  | TyName n => [TId (named_text n)]
  | TyPtr i => pty i ++ [K KStar]
  | TyTuple ts => K KLParen :: psep KComma (map pty ts) ++ [K KRParen]
  | TyArr i n => K KLBrack :: pty i ++ [K KSemi; TNum n None; K KRBrack]
  end.
Definition ukw (o : uop) : kw := match o with UNot => KNot | UNeg => KMinus end.
Definition bkw (o : bop) : kw :=
  match o with
  | BAdd => KPlus | BSub => KMinus | BMul => KStar | BDiv => KDiv | BMod => KMod
  | BEq => KEqEq | BNeq => KNeq | BLt => KLt | BGt => KGt | BLe => KLe | BGe => KGe
  | BAnd => KAndAnd | BOr => KOrOr | BBitAnd => KAnd | BBitOr => KOr | BBitXor => KXor
  end.
Fixpoint pe (e : expr) : list token :=
  match e with
  | ELit v s => [TNum v s]
  | EBool b => [K (if b then KTrue else KFalse)]
  | EId x => [TId x]
  | EUn o a => K (ukw o) :: pe a
  | EBin o l r => pe l ++ K (bkw o) :: pe r
  | ECall f es => pe f ++ K KLParen :: psep KComma (map pe es) ++ [K KRParen]
  | EMem a f => pe a ++ [K KDot; TId f]
  | EIdx a i => pe a ++ K KLBrack :: pe i ++ [K KRBrack]
  | EStruct n fs =>
      TId n :: K KLBrace :: psep KComma (map (fun fe => TId (fst fe) :: K KColon :: pe (snd fe)) fs) ++ [K KRBrace]
  | ETuple es => K KLParen :: psep KComma (map pe es) ++ [K KRParen]
  | ETupIdx a i => pe a ++ [K KDot; TNum i None]
  | EArr es => K KLBrack :: psep KComma (map pe es) ++ [K KRBrack]
  | ERep a n => K KLBrack :: pe a ++ [K KSemi; TNum n None; K KRBrack]
  | ECast a t => pe a ++ K KAs :: pty t
  | ENew t n => K KNew :: pty t ++ K KLBrack :: pe n ++ [K KRBrack]
  | EPar a => K KLParen :: pe a ++ [K KRParen]
  end.

(** ** The trees that the parser builds *)
Fixpoint allw (s : string) : bool :=
  match s with EmptyString => true | String c r => is_word c && allw r end.
Definition idok (x : string) : bool :=
  allw x && match word x with Some (TId y) => (x =? y)%string | _ => false end.
Definition numok (v : N) : bool := (v <? 2 ^ 64)%N.
Definition named_ok (n : named) : bool :=
  match n with
  | NCustom s => idok s && match name_type s with NCustom _ => true | _ => false end
  | _ => true
  end.
Fixpoint wfty (t : ty) : bool :=
  match t with
  | TyName n => named_ok n
  | TyPtr i => wfty i
  | TyTuple ts => forallb wfty ts
  | TyArr i n => wfty i && numok n
  end.
Fixpoint noarr (t : ty) : bool :=
  match t with
  | TyName n => true
  | TyPtr i => noarr i
  | TyTuple ts => forallb noarr ts
  | TyArr _ _ => false
  end.
Definition btier (o : bop) : nat :=
  match o with
  | BAnd | BOr => 0
  | BBitAnd | BBitOr | BBitXor => 1
  | BEq | BNeq | BLt | BGt | BLe | BGe => 2
  | BAdd | BSub => 3
  | BMul | BDiv | BMod => 4
  end.
Definition lv (e : expr) : nat :=
  match e with
  | EBin o _ _ => btier o
  | ECast _ _ => 5
  | EUn _ _ => 6
  | ECall _ _ | EMem _ _ | EIdx _ _ | ETupIdx _ _ => 7
  | _ => 8
  end.
Definition is_named (t : ty) : bool := match t with TyName _ => true | _ => false end.
Fixpoint wfe (e : expr) : bool :=
  match e with
  | ELit v s => numok v && suffix_ok s
  | EBool _ => true
  | EId x => idok x
  | EUn _ a => Nat.leb 6 (lv a) && wfe a
  | EBin o l r => Nat.leb (btier o) (lv l) && Nat.ltb (btier o) (lv r) && wfe l && wfe r
  | ECall f es => Nat.leb 7 (lv f) && wfe f && forallb wfe es
  | EMem a f => Nat.leb 7 (lv a) && wfe a && idok f
  | EIdx a i => Nat.leb 7 (lv a) && wfe a && wfe i
  | EStruct n fs => idok n && forallb (fun fe => idok (fst fe) && wfe (snd fe)) fs
  | ETuple es => forallb wfe es
  | ETupIdx a i => Nat.leb 7 (lv a) && wfe a && numok i
  | EArr es => forallb wfe es
  | ERep a n => wfe a && numok n
  | ECast a t => Nat.leb 5 (lv a) && wfe a && is_named t && wfty t
  | ENew t n => wfty t && noarr t && wfe n
  | EPar a => wfe a
  end.

(** ** Induction principles *)
Section ExprInd.
Variable Q : expr -> Prop.
Hypothesis HLit : forall v s, Q (ELit v s).
Hypothesis HBool : forall b, Q (EBool b).
Hypothesis HId : forall x, Q (EId x).
Hypothesis HUn : forall o a, Q a -> Q (EUn o a).
Hypothesis HBin : forall o l r, Q l -> Q r -> Q (EBin o l r).
Hypothesis HCall : forall f es, Q f -> Forall Q es -> Q (ECall f es).
Hypothesis HMem : forall a f, Q a -> Q (EMem a f).
Hypothesis HIdx : forall a i, Q a -> Q i -> Q (EIdx a i).
Hypothesis HStruct : forall n fs, Forall (fun fe => Q (snd fe)) fs -> Q (EStruct n fs).
Hypothesis HTuple : forall es, Forall Q es -> Q (ETuple es).
Hypothesis HTupIdx : forall a i, Q a -> Q (ETupIdx a i).
Hypothesis HArr : forall es, Forall Q es -> Q (EArr es).
Hypothesis HRep : forall a n, Q a -> Q (ERep a n).
Hypothesis HCast : forall a t, Q a -> Q (ECast a t).
Hypothesis HNew : forall t n, Q n -> Q (ENew t n).
Hypothesis HPar : forall a, Q a -> Q (EPar a).
Fixpoint expr_ind2 (e : expr) : Q e :=
  match e with
  | ELit v s => HLit v s
  | EBool b => HBool b
  | EId x => HId x
  | EUn o a => HUn o a (expr_ind2 a)
  | EBin o l r => HBin o l r (expr_ind2 l) (expr_ind2 r)
  | ECall f es => HCall f es (expr_ind2 f)
      ((fix go l := match l return Forall Q l with [] => Forall_nil _ | x :: r => Forall_cons _ (expr_ind2 x) (go r) end) es)
  | EMem a f => HMem a f (expr_ind2 a)
  | EIdx a i => HIdx a i (expr_ind2 a) (expr_ind2 i)
  | EStruct n fs => HStruct n fs
      ((fix go l := match l return Forall (fun fe => Q (snd fe)) l with [] => Forall_nil _ | x :: r => Forall_cons x (expr_ind2 (snd x)) (go r) end) fs)
  | ETuple es => HTuple es
      ((fix go l := match l return Forall Q l with [] => Forall_nil _ | x :: r => Forall_cons _ (expr_ind2 x) (go r) end) es)
  | ETupIdx a i => HTupIdx a i (expr_ind2 a)
  | EArr es => HArr es
      ((fix go l := match l return Forall Q l with [] => Forall_nil _ | x :: r => Forall_cons _ (expr_ind2 x) (go r) end) es)
  | ERep a n => HRep a n (expr_ind2 a)
  | ECast a t => HCast a t (expr_ind2 a)
  | ENew t n => HNew t n (expr_ind2 n)
  | EPar a => HPar a (expr_ind2 a)
  end.
End ExprInd.
Section TyInd.
Variable Q : ty -> Prop.
Hypothesis HName : forall n, Q (TyName n).
Hypothesis HPtr : forall t, Q t -> Q (TyPtr t).
Hypothesis HTup : forall ts, Forall Q ts -> Q (TyTuple ts).
Hypothesis HArr : forall t n, Q t -> Q (TyArr t n).
Fixpoint ty_ind2 (t : ty) : Q t :=
  match t with
  | TyName n => HName n
  | TyPtr i => HPtr i (ty_ind2 i)
  | TyTuple ts => HTup ts
      ((fix go l := match l return Forall Q l with [] => Forall_nil _ | x :: r => Forall_cons _ (ty_ind2 x) (go r) end) ts)
  | TyArr i n => HArr i n (ty_ind2 i)
  end.
End TyInd.

(** ** Lists with separators *)
Lemma kw_eqb_refl k : kw_eqb k k = true.
Proof. apply Nat.eqb_refl. Qed.
Lemma just_ok k r : just k (K k :: r) = POk tt r.
Proof. cbn. rewrite kw_eqb_refl. reflexivity. Qed.
Lemma bind_eq {A B} (p : parser A) (k : A -> parser B) ts a r : p ts = POk a r -> bind p k ts = k a r.
Proof. intro E. unfold bind. rewrite E. reflexivity. Qed.
Lemma bind_fail {A B} (p : parser A) (k : A -> parser B) ts : p ts = PFail -> bind p k ts = PFail.
Proof. intro E. unfold bind. rewrite E. reflexivity. Qed.
Lemma bind_just {B} k (q : parser B) r : (just k ;; q) (K k :: r) = q r.
Proof. exact (bind_eq (just k) (fun _ => q) _ tt r (just_ok k r)). Qed.
Lemma bind_ident {B} (k : string -> parser B) x r : bind ident k (TId x :: r) = k x r.
Proof. reflexivity. Qed.
Lemma orelse_l {A} (p q : parser A) ts a r : p ts = POk a r -> orelse p q ts = POk a r.
Proof. intro E. unfold orelse. rewrite E. reflexivity. Qed.
Lemma orelse_r {A} (p q : parser A) ts : p ts = PFail -> orelse p q ts = q ts.
Proof. intro E. unfold orelse. rewrite E. reflexivity. Qed.
Lemma opt_some {A} (p : parser A) ts a r : p ts = POk a r -> opt p ts = POk (Some a) r.
Proof. intro E. unfold opt. rewrite E. reflexivity. Qed.
Lemma opt_none {A} (p : parser A) ts : p ts = PFail -> opt p ts = POk None ts.
Proof. intro E. unfold opt. rewrite E. reflexivity. Qed.

Definition tails {A} (k : kw) (pp : A -> list token) (l : list A) : list token :=
  flat_map (fun x => K k :: pp x) l.
Lemma psep_cons {A} k (pp : A -> list token) a l :
  psep k (map pp (a :: l)) = pp a ++ tails k pp l.
Proof.
  revert a. induction l as [|b l IH]; intro a.
  - cbn. symmetry. apply app_nil_r.
  - change (psep k (map pp (a :: b :: l))) with (pp a ++ K k :: psep k (map pp (b :: l))).
    rewrite IH. reflexivity.
Qed.
(** [r] follows an item of the list: a separator or what comes after the list. *)
Definition next (k : kw) (rest r : list token) : Prop := r = rest \/ exists r', r = K k :: r'.
Lemma tails_ok {A} k (p : parser A) pp l rest :
  shr p -> just k rest = PFail \/ (exists r, rest = K k :: r /\ p r = PFail) ->
  (forall x, In x l -> forall r, next k rest r -> p (pp x ++ r) = POk x r) ->
  repeated (just k ;; p) (tails k pp l ++ rest) = POk l rest.
Proof.
  intros Hs Hr Hp. assert (Hs' : shr (just k ;; p)) by (apply shr_bind; [apply shr_just | intro; apply shr_shr0, Hs]).
  induction l as [|x l IH].
  - cbn [tails flat_map app]. apply repeated_nil. destruct Hr as [Hr | (r & -> & Hr)].
    + apply bind_fail, Hr.
    + rewrite bind_just. exact Hr.
  - cbn [tails flat_map]. fold (tails k pp l). rewrite <- app_assoc. cbn [app].
    assert (E : (just k ;; p) (K k :: pp x ++ tails k pp l ++ rest) = POk x (tails k pp l ++ rest)).
    { rewrite bind_just. apply Hp; [left; reflexivity|]. destruct l as [|y l]; [left; reflexivity|].
      right. cbn. eauto. }
    rewrite (repeated_cons _ _ _ _ Hs' E), IH; [reflexivity|].
    intros y Hy. apply Hp. right. exact Hy.
Qed.
Lemma sep_ok {A} k (p : parser A) pp l rest :
  shr p -> just k rest = PFail \/ (exists r, rest = K k :: r /\ p r = PFail) -> (l = [] -> p rest = PFail) ->
  (forall x, In x l -> forall r, next k rest r -> p (pp x ++ r) = POk x r) ->
  sep k p (psep k (map pp l) ++ rest) = POk l rest.
Proof.
  intros Hs Hr Hn Hp. unfold sep. destruct l as [|a l].
  - cbn [map psep app]. rewrite (bind_eq _ _ _ None rest) by (apply opt_none, Hn; reflexivity). reflexivity.
  - rewrite psep_cons, <- app_assoc.
    rewrite (bind_eq _ _ _ (Some a) (tails k pp l ++ rest)).
    + rewrite (bind_eq _ _ _ l rest); [reflexivity|]. apply tails_ok; auto.
      intros x Hx. apply Hp. right. exact Hx.
    + apply opt_some, Hp; [left; reflexivity|]. destruct l; [left; reflexivity | right; cbn; eauto].
Qed.
Lemma sept_ok {A} k (p : parser A) pp l rest :
  shr p -> just k rest = PFail -> (l = [] -> p rest = PFail) ->
  (forall x, In x l -> forall r, next k rest r -> p (pp x ++ r) = POk x r) ->
  sept k p (psep k (map pp l) ++ rest) = POk l rest.
Proof.
  intros Hs Hr Hn Hp. unfold sept. rewrite (bind_eq _ _ _ l rest) by (apply sep_ok; auto).
  destruct l; [reflexivity|]. rewrite (bind_eq _ _ _ None rest) by (apply opt_none, Hr). reflexivity.
Qed.
Lemma delim_ok {A} a b (p : parser A) ts x r : p ts = POk x (K b :: r) -> delim a b p (K a :: ts) = POk x r.
Proof. intro E. unfold delim. rewrite bind_just, (bind_eq _ _ _ _ _ E), bind_just. reflexivity. Qed.

(** ** Loops *)
Definition loop {A B} (q : parser B) (f : A -> B -> A) (a : A) : parser A :=
  l <- repeated q ;; ret (fold_left f l a).
Lemma foldl_loop {A B} (p : parser A) (q : parser B) f ts a r :
  p ts = POk a r -> foldl p q f ts = loop q f a r.
Proof. intro E. unfold foldl. rewrite (bind_eq _ _ _ _ _ E). reflexivity. Qed.
Lemma loop_step {A B} (q : parser B) (f : A -> B -> A) a ts x r :
  shr q -> q ts = POk x r -> loop q f a ts = loop q f (f a x) r.
Proof.
  intros Hs E. unfold loop, bind. rewrite (repeated_cons q ts x r Hs E).
  destruct (repeated q r); reflexivity.
Qed.
Lemma loop_stop {A B} (q : parser B) (f : A -> B -> A) a ts : q ts = PFail -> loop q f a ts = POk a ts.
Proof. intro E. unfold loop, bind. rewrite (repeated_nil q ts E). reflexivity. Qed.

(** ** Types *)
Definition maxl {A} (f : A -> nat) (l : list A) : nat := fold_right (fun x n => Nat.max (f x) n) 0 l.
Lemma maxl_cons {A} (f : A -> nat) x l : maxl f (x :: l) = Nat.max (f x) (maxl f l).
Proof. reflexivity. Qed.
Lemma maxl_in {A} (f : A -> nat) l x : In x l -> f x <= maxl f l.
Proof. induction l as [|y l IH]; intros []; rewrite maxl_cons; [subst; lia|]. specialize (IH H). lia. Qed.
Lemma maxl_le {A} (f : A -> nat) l n : (forall x, In x l -> f x <= n) -> maxl f l <= n.
Proof. induction l as [|y l IH]; intro H; [cbn; lia|]; rewrite maxl_cons. specialize (IH (fun x Hx => H x (or_intror Hx))).
  specialize (H y (or_introl eq_refl)). lia. Qed.
Fixpoint thgt (t : ty) : nat :=
  match t with
  | TyName _ => 0
  | TyPtr i => thgt i
  | TyTuple ts => S (maxl thgt ts)
  | TyArr i _ => S (thgt i)
  end.
Lemma psep_len {A} k (pp : A -> list token) l x : In x l -> length (pp x) <= length (psep k (map pp l)).
Proof.
  induction l as [|a l IH]; intros []; rewrite psep_cons, app_length; [subst; lia|].
  specialize (IH H). destruct l as [|b l]; [destruct H|].
  rewrite psep_cons, app_length in IH. cbn. rewrite !app_length. cbn. unfold tails in IH. lia.
Qed.
Lemma thgt_len t : thgt t <= length (pty t).
Proof.
  induction t as [n | t IH | ts IH | t n IH] using ty_ind2; cbn [thgt pty length].
  - lia.
  - rewrite app_length. lia.
  - rewrite app_length. cbn. enough (maxl thgt ts <= length (psep KComma (map pty ts))) by lia.
    apply maxl_le. intros x Hx. rewrite Forall_forall in IH. specialize (IH x Hx).
    pose proof (psep_len KComma pty ts x Hx). lia.
  - rewrite app_length. cbn. lia.
Qed.
Lemma name_ok n : named_ok n = true -> name_type (named_text n) = n.
Proof.
  destruct n as [| | |s]; try reflexivity. cbn. intro H. apply andb_prop in H as [_ H].
  unfold name_type in *. destruct (s =? "felt")%string; [discriminate|].
  destruct (s =? "bool")%string; [discriminate|]. destruct (s =? "u32")%string; [discriminate|]. reflexivity.
Qed.
Definition nostar (ts : list token) : bool := match ts with K KStar :: _ => false | _ => true end.
Lemma just_kw k ts : (forall r, ts <> K k :: r) -> just k ts = PFail.
Proof.
  intro H. destruct ts as [|[| |j] r]; try reflexivity. cbn. destruct (kw_eqb k j) eqn:E; [|reflexivity].
  exfalso. apply (H r). f_equal. f_equal. apply Nat.eqb_eq in E. destruct k, j; try discriminate; reflexivity.
Qed.
Lemma nostar_ok ts : nostar ts = true -> just KStar ts = PFail.
Proof. intro H. apply just_kw. intros r ->. discriminate. Qed.
Lemma forallb_in {A} (f : A -> bool) l x : forallb f l = true -> In x l -> f x = true.
Proof. rewrite forallb_forall. auto. Qed.

Lemma stars_rt (base self : parser ty) (good : ty -> Prop) :
  shr self ->
  (forall x r, base (TId x :: r) = POk (TyName (name_type x)) r) ->
  (forall r, base (K KLParen :: r) = tuple_ty self (K KLParen :: r)) ->
  (forall r, good (TyTuple []) -> self (K KRParen :: r) = PFail) ->
  (forall t n r, good (TyArr t n) -> base (pty (TyArr t n) ++ r) = POk (TyArr t n) r) ->
  (forall ts t r, good (TyTuple ts) -> In t ts -> nostar r = true -> self (pty t ++ r) = POk t r) ->
  (forall t, good (TyPtr t) -> good t) ->
  forall t rest, good t -> wfty t = true -> prt t = true ->
    stars base (pty t ++ rest) = loop (just KStar) (fun t _ => TyPtr t) t rest.
Proof.
  intros Hs Hn Hl Hf Ha Ht Hg t.
  induction t as [n | t IH | ts IH | t n IH] using ty_ind2; intros rest G W Pr.
  - cbn [pty app]. apply foldl_loop. rewrite Hn, name_ok by exact W. reflexivity.
  - cbn [pty]. rewrite <- app_assoc. cbn [app]. rewrite IH by auto.
    apply (loop_step (just KStar) (fun t (_ : unit) => TyPtr t) t _ tt); [apply shr_just | apply just_ok].
  - apply foldl_loop. cbn [pty app]. rewrite Hl. unfold tuple_ty. rewrite bind_just, <- app_assoc. cbn [app].
    cbn in Pr. apply andb_prop in Pr as [Ps Pf].
    assert (E : sep KComma self (psep KComma (map pty ts) ++ K KRParen :: rest) = POk ts (K KRParen :: rest)).
    { apply sep_ok; [exact Hs | left; reflexivity | intros ->; apply Hf, G |].
      intros x Hx r Hr. apply (Ht ts); [exact G | exact Hx |]. destruct Hr as [-> | (r' & ->)]; reflexivity. }
    rewrite (bind_eq _ _ _ _ _ E).
    rewrite (bind_eq _ _ _ None (K KRParen :: rest)) by reflexivity.
    rewrite bind_just. unfold ret. destruct ts as [|a [|b l]]; [reflexivity | discriminate | reflexivity].
  - apply foldl_loop. apply Ha. exact G.
Qed.
Lemma alloc_fail n r : alloc (S n) (K KRParen :: r) = PFail.
Proof. reflexivity. Qed.
Lemma alloc_rt n : forall t rest, thgt t < n -> wfty t = true -> noarr t = true -> prt t = true ->
  nostar rest = true -> alloc n (pty t ++ rest) = POk t rest.
Proof.
  induction n as [|n IH]; intros t rest Hh W Na Pr Hr; [lia|]. cbn [alloc]. unfold alloc_f.
  rewrite (stars_rt _ (alloc n) (fun t => thgt t < S n /\ wfty t = true /\ noarr t = true /\ prt t = true)); auto.
  - apply loop_stop, nostar_ok, Hr.
  - apply shr_alloc.
  - intros r (H & _). cbn in H. destruct n; [lia | reflexivity].
  - intros t' k r (_ & _ & H & _). discriminate.
  - intros ts x r (H1 & H2 & H3 & H4) Hx Hx'. cbn in H1, H2, H3, H4. apply andb_prop in H4 as [_ H4].
    apply IH; eauto using forallb_in. pose proof (maxl_in thgt ts x Hx). lia.
Qed.
Lemma alloc_p_rt t rest : wfty t = true -> noarr t = true -> prt t = true -> nostar rest = true ->
  fueled alloc (pty t ++ rest) = POk t rest.
Proof.
  intros. unfold fueled. apply alloc_rt; auto. pose proof (thgt_len t). rewrite app_length. lia.
Qed.

(** ** Expressions *)
Fixpoint hgt (e : expr) : nat :=
  match e with
  | ELit _ _ | EBool _ | EId _ => 0
  | EUn _ a => hgt a
  | EBin _ l r => Nat.max (hgt l) (hgt r)
  | ECall f es => Nat.max (hgt f) (S (maxl hgt es))
  | EMem a _ => hgt a
  | EIdx a i => Nat.max (hgt a) (S (hgt i))
  | EStruct _ fs => S (maxl (fun fe => hgt (snd fe)) fs)
  | ETuple es => S (maxl hgt es)
  | ETupIdx a _ => hgt a
  | EArr es => S (maxl hgt es)
  | ERep a _ => S (hgt a)
  | ECast a _ => hgt a
  | ENew _ n => S (hgt n)
  | EPar a => S (hgt a)
  end.
Lemma hgt_list (es : list expr) : Forall (fun e => hgt e <= length (pe e)) es ->
  maxl hgt es <= length (psep KComma (map pe es)).
Proof.
  intro IH. apply maxl_le. intros x Hx. rewrite Forall_forall in IH. specialize (IH x Hx).
  pose proof (psep_len KComma pe es x Hx). lia.
Qed.
Lemma hgt_len e : hgt e <= length (pe e).
Proof.
  induction e using expr_ind2; cbn [hgt pe length]; rewrite ?app_length; cbn [length]; rewrite ?app_length; cbn [length];
    rewrite ?app_length; cbn [length];
    try match goal with H : Forall (fun e => hgt e <= _) _ |- _ => apply hgt_list in H end; try lia.
  match goal with |- S (maxl ?f fs) <= _ => enough (maxl f fs <=
    length (psep KComma (map (fun fe : string * expr => TId (fst fe) :: K KColon :: pe (snd fe)) fs))) by lia end.
  apply maxl_le. intros x Hx. rewrite Forall_forall in H. specialize (H x Hx).
  pose proof (psep_len KComma (fun fe : string * expr => TId (fst fe) :: K KColon :: pe (snd fe)) fs x Hx) as L.
  cbn [length] in L. lia.
Qed.
(** First tokens. *)
Definition starts (k : kw) : bool :=
  match k with KTrue | KFalse | KNew | KLBrack | KLParen | KNot | KMinus => true | _ => false end.
Definition starter (t : token) : bool := match t with K k => starts k | _ => true end.
Definition hd_tok (f : token -> bool) (ts : list token) : bool :=
  match ts with [] => false | t :: _ => f t end.
Lemma pe_start e : hd_tok starter (pe e) = true.
Proof.
  induction e using expr_ind2; cbn [pe]; try reflexivity;
    try match goal with |- hd_tok _ (pe ?a ++ _) = true => destruct (pe a); [discriminate | assumption] end.
  - destruct b; reflexivity.
  - destruct o; reflexivity.
Qed.
Definition not_unary (t : token) : bool := match t with K KNot | K KMinus => false | _ => true end.
Lemma pe_not_unary e : wfe e = true -> 7 <= lv e -> hd_tok not_unary (pe e) = true.
Proof.
  induction e using expr_ind2; cbn [pe lv wfe]; intros W L; try reflexivity; try lia;
    try (destruct o; cbn in L; lia);
    try (repeat (apply andb_prop in W as [W ?]); apply Nat.leb_le in W;
         match goal with IH : _ -> _ -> hd_tok _ (pe ?a) = true |- context [pe ?a ++ _] =>
           specialize (IH ltac:(assumption) W); destruct (pe a); [discriminate | exact IH] end).
  destruct b; reflexivity.
Qed.
Lemma expr_fail n k r : starts k = false -> expr_n (S n) (K k :: r) = PFail.
Proof. intro H. destruct k; try discriminate H; reflexivity. Qed.

(** Tokens that continue an expression, with the level of the operator. *)
Definition clevel (t : token) : option nat :=
  match t with
  | K k =>
      match k with
      | KLParen | KLBrack | KDot => Some 7
      | KAs => Some 5
      | KStar | KDiv | KMod => Some 4
      | KPlus | KMinus => Some 3
      | KEqEq | KNeq | KLt | KGt | KLe | KGe => Some 2
      | KAnd | KOr | KXor => Some 1
      | KAndAnd | KOrOr => Some 0
      | _ => None
      end
  | _ => None
  end.
Definition stopk (k : nat) (ts : list token) : bool :=
  match ts with
  | [] => true
  | t :: _ => match clevel t with Some j => Nat.ltb j k | None => true end
  end.
Definition nostruct (ts : list token) : bool :=
  match ts with
  | K KLBrace :: K KRBrace :: _ => false
  | K KLBrace :: TId _ :: K KColon :: _ => false
  | _ => true
  end.
Definition okid (e : expr) (rest : list token) : Prop := ends_ident e = true -> nostruct rest = true.
Lemma stopk_le j k ts : j <= k -> stopk j ts = true -> stopk k ts = true.
Proof. intro H. destruct ts as [|t ts]; [reflexivity|]. cbn. destruct (clevel t); [|reflexivity].
  intro E. apply Nat.ltb_lt in E. apply Nat.ltb_lt. lia. Qed.

Definition ops (k : nat) : list (kw * bop) :=
  match k with 0 => log_ops | 1 => bit_ops | 2 => cmp_ops | 3 => add_ops | 4 => mul_ops | _ => [] end.
Definition Pk (k : nat) (self : parser expr) : parser expr :=
  match k with
  | 0 => log_e self | 1 => bit_e self | 2 => cmp_e self | 3 => add_e self | 4 => mul_e self
  | _ => cast_e self
  end.
Lemma Pk_tier k self : k <= 4 -> Pk k self = tier (Pk (S k) self) (ops k).
Proof. intro. do 5 (destruct k as [|k]; [reflexivity|]). lia. Qed.
Lemma shr_Pk k self : shr self -> shr (Pk k self).
Proof.
  intro H. do 5 (destruct k as [|k]; [cbn [Pk]; unfold log_e, bit_e, cmp_e, add_e, mul_e; repeat apply shr_tier; apply shr_cast, H|]).
  apply shr_cast, H.
Qed.
Definition opq (k : nat) (self : parser expr) : parser (bop * expr) :=
  o <- oneof (ops k) ;; e <- Pk (S k) self ;; ret (o, e).
Definition binf (l : expr) (oe : bop * expr) : expr := EBin (fst oe) l (snd oe).
Definition castq : parser ty := just KAs ;; named_ty.
Lemma opq_stop k self rest : k <= 4 -> stopk k rest = true -> opq k self rest = PFail.
Proof.
  intros Hk Hs. unfold opq. apply bind_fail. destruct rest as [|[| |j] r]; try reflexivity.
  do 5 (destruct k as [|k]; [destruct j; try reflexivity; discriminate Hs|]). lia.
Qed.
Lemma opq_op o r : oneof (ops (btier o)) (K (bkw o) :: r) = POk o r.
Proof. destruct o; reflexivity. Qed.
Lemma btier_le o : btier o <= 4.
Proof. destruct o; cbn; lia. Qed.
Lemma clevel_op o : clevel (K (bkw o)) = Some (btier o).
Proof. destruct o; reflexivity. Qed.
Lemma castq_stop rest : stopk 5 rest = true -> castq rest = PFail.
Proof. intro H. apply bind_fail. apply just_kw. intros r ->. discriminate. Qed.
Lemma post_stop self rest : stopk 7 rest = true -> post_p self rest = PFail.
Proof. intro H. destruct rest as [|[| |k] r]; try reflexivity. destruct k; try reflexivity; discriminate. Qed.

Section RT.
Variable m : nat.
Let self := expr_n m.
Let Hs : shr self := shr_expr_n m.
Hypothesis IH : forall e rest, hgt e < m -> wfe e = true -> pre e = true -> stopk 0 rest = true ->
  okid e rest -> self (pe e ++ rest) = POk e rest.

Lemma self_fail k r : 0 < m -> starts k = false -> self (K k :: r) = PFail.
Proof. clear IH. unfold self. clear self Hs. intros Hm Hk. destruct m; [lia|]. apply expr_fail, Hk. Qed.
Lemma down_op e rest ts : forall d k, k + d <= 4 -> Pk (k + d) self ts = loop (opq (k + d) self) binf e rest ->
  stopk (S k) rest = true -> Pk k self ts = loop (opq k self) binf e rest.
Proof.
  induction d as [|d IHd]; intros k Hk H St.
  - rewrite Nat.add_0_r in H. exact H.
  - rewrite Pk_tier by lia. apply foldl_loop. rewrite (IHd (S k)).
    + apply loop_stop, opq_stop; [lia | exact St].
    + lia.
    + rewrite Nat.add_succ_comm. exact H.
    + apply (stopk_le (S k)); [lia | exact St].
Qed.
(** What holds at the level of an operand, at every looser level. *)
Definition ok_at (e : expr) (rest : list token) (ts : list token) : Prop :=
  (forall k, k <= 4 -> k <= lv e -> stopk (S k) rest = true -> Pk k self ts = loop (opq k self) binf e rest) /\
  (5 <= lv e -> stopk 6 rest = true -> cast_e self ts = loop castq ECast e rest) /\
  (6 <= lv e -> stopk 7 rest = true -> unary_e self ts = POk e rest) /\
  (7 <= lv e -> post_e self ts = loop (post_p self) apply_post e rest).
Lemma from_op e rest ts j : lv e = j -> j <= 4 ->
  (stopk (S j) rest = true -> Pk j self ts = loop (opq j self) binf e rest) -> ok_at e rest ts.
Proof.
  intros E Hj H. repeat split; intros; try lia. rewrite E in *.
  apply (down_op e rest ts (j - k)); [lia | | assumption].
  replace (k + (j - k)) with j by lia. apply H. apply (stopk_le (S k)); [lia | assumption].
Qed.
Lemma from_cast e rest ts : 5 <= lv e ->
  (stopk 6 rest = true -> cast_e self ts = loop castq ECast e rest) ->
  (6 <= lv e -> stopk 7 rest = true -> unary_e self ts = POk e rest) ->
  (7 <= lv e -> post_e self ts = loop (post_p self) apply_post e rest) -> ok_at e rest ts.
Proof.
  intros L H H6 H7. repeat split; auto. intros k Hk _ St.
  apply (down_op e rest ts (4 - k)); [lia | | exact St]. replace (k + (4 - k)) with 4 by lia.
  rewrite Pk_tier by lia. apply foldl_loop. change (Pk 5 self ts) with (cast_e self ts).
  rewrite H by (apply (stopk_le (S k)); [lia | exact St]).
  apply loop_stop, castq_stop. apply (stopk_le (S k)); [lia | exact St].
Qed.
Lemma from_unary e rest ts : 6 <= lv e ->
  (stopk 7 rest = true -> unary_e self ts = POk e rest) ->
  (7 <= lv e -> post_e self ts = loop (post_p self) apply_post e rest) -> ok_at e rest ts.
Proof.
  intros L H H7. apply from_cast; auto; [lia|]. intro St. apply foldl_loop, H.
  apply (stopk_le 6); [lia | exact St].
Qed.
Lemma from_post e rest ts : 7 <= lv e -> hd_tok not_unary ts = true ->
  post_e self ts = loop (post_p self) apply_post e rest -> ok_at e rest ts.
Proof.
  intros L Hh H. apply from_unary; auto; [lia|]. intro St. unfold unary_e.
  rewrite (bind_eq _ _ _ [] ts).
  - rewrite (bind_eq _ _ _ e rest); [reflexivity|]. rewrite H. apply loop_stop, post_stop, St.
  - apply repeated_nil. destruct ts as [|[| |k] ts]; try reflexivity. destruct k; try reflexivity; discriminate.
Qed.
Lemma from_atom e rest ts : lv e = 8 -> hd_tok not_unary ts = true ->
  atom self ts = POk e rest -> ok_at e rest ts.
Proof. intros L Hh H. apply from_post; auto; [lia|]. apply foldl_loop, H. Qed.

(** What follows an operand. *)
Lemma at_tier e rest ts k : ok_at e rest ts -> k <= 4 -> k <= lv e -> stopk k rest = true ->
  Pk k self ts = POk e rest.
Proof.
  intros (H & _) Hk Hl St. rewrite H; auto.
  - apply loop_stop, opq_stop; assumption.
  - apply (stopk_le k); [lia | exact St].
Qed.
Lemma at_cast e rest ts : ok_at e rest ts -> 5 <= lv e -> stopk 5 rest = true -> cast_e self ts = POk e rest.
Proof.
  intros (_ & H & _) Hl St. rewrite H; auto.
  - apply loop_stop, castq_stop, St.
  - apply (stopk_le 5); [lia | exact St].
Qed.
Lemma at_level e rest ts k : ok_at e rest ts -> k <= 5 -> k <= lv e -> stopk k rest = true ->
  Pk k self ts = POk e rest.
Proof.
  intros H Hk Hl St. destruct (Nat.eq_dec k 5) as [->|].
  - apply at_cast; assumption.
  - apply at_tier; auto; lia.
Qed.

Lemma unary_cons o ts e r : unary_e self ts = POk e r -> unary_e self (K (ukw o) :: ts) = POk (EUn o e) r.
Proof.
  unfold unary_e. intro H. apply bind_ok in H as (l & r1 & H1 & H2). apply bind_ok in H2 as (e1 & r2 & H2 & H3).
  unfold bind. rewrite (repeated_cons _ _ o ts (shr_oneof _)) by (destruct o; reflexivity).
  rewrite H1, H2. unfold ret in *. inversion H3; subst. reflexivity.
Qed.

Lemma self_in (es : list expr) x r : maxl hgt es < m -> forallb wfe es = true -> forallb pre es = true ->
  In x es -> stopk 0 r = true -> (forall y, r <> K KLBrace :: y) -> self (pe x ++ r) = POk x r.
Proof.
  intros Hh W Pr Hx St Hb. apply IH; eauto using forallb_in.
  - pose proof (maxl_in hgt es x Hx). lia.
  - intros _. destruct r as [|[| |[]] r]; try reflexivity. exfalso. exact (Hb r eq_refl).
Qed.
Lemma self_list (es : list expr) k rest : maxl hgt es < m -> forallb wfe es = true -> forallb pre es = true ->
  starts k = false -> clevel (K k) = None -> k <> KComma -> k <> KLBrace ->
  sept KComma self (psep KComma (map pe es) ++ K k :: rest) = POk es (K k :: rest).
Proof.
  intros Hh W Pr Hk Hc Hn Hb. apply sept_ok; [exact Hs | | |].
  - apply just_kw. congruence.
  - intros ->. cbn in Hh. apply self_fail; [lia | exact Hk].
  - intros x Hx r Hr. apply (self_in es); auto.
    + destruct Hr as [-> | (r' & ->)]; [|reflexivity]. unfold stopk. rewrite Hc. reflexivity.
    + intros y ->. destruct Hr as [Hr | (r' & Hr)]; congruence.
Qed.
Lemma noid ts : nostruct ts = true -> forall x, struct_p self (TId x :: ts) = PFail.
Proof.
  intros H x. unfold struct_p. rewrite (bind_eq _ _ _ x ts) by reflexivity. apply bind_fail.
  unfold delim. destruct ts as [|[| |k] ts]; try reflexivity.
  destruct k; try reflexivity. rewrite bind_just.
  destruct ts as [|[| |j] ts]; try reflexivity.
  - destruct ts as [|[| |k] ts]; try reflexivity. destruct k; try reflexivity. discriminate.
  - destruct j; try reflexivity. discriminate.
Qed.
Lemma rt_one e : hgt e < S m -> wfe e = true -> pre e = true -> forall rest, okid e rest ->
  ok_at e rest (pe e ++ rest).
Proof.
  induction e as [v s|b|x|o a Ha|o l r Hl Hr|f es Hf Hes|a f Ha|a i Ha Hi|n fs Hfs|es Hes|a i Ha|es Hes|a n Ha|a t Ha|t n Hn|a Ha]
    using expr_ind2; cbn [hgt wfe pre]; intros Hh W Pr rest Ho.
  - apply from_atom; [reflexivity | reflexivity |]. apply andb_prop in W as [_ W].
    cbn [pe app]. apply orelse_l. unfold lit_p. rewrite (bind_eq _ _ _ (v, s) rest) by reflexivity.
    cbn [snd fst]. rewrite W. reflexivity.
  - destruct b; apply from_atom; reflexivity.
  - apply from_atom; [reflexivity | reflexivity |]. specialize (Ho eq_refl). cbn [pe app].
    unfold atom. do 3 (rewrite orelse_r by reflexivity). rewrite orelse_r by (apply noid, Ho). reflexivity.
  - apply andb_prop in W as [W1 W2]. apply Nat.leb_le in W1.
    apply from_unary; [reflexivity | | cbn; lia]. intro St.
    cbn [pe app]. apply unary_cons. destruct (Ha Hh W2 Pr rest Ho) as (_ & _ & H & _). auto.
  - repeat (apply andb_prop in W as [W ?]). apply andb_prop in Pr as [Pl Prr].
    apply Nat.leb_le in W. match goal with H : Nat.ltb _ _ = true |- _ => apply Nat.ltb_lt in H end.
    apply (from_op _ _ _ (btier o)); [reflexivity | apply btier_le |]. intro St.
    cbn [pe]. rewrite <- app_assoc. cbn [app].
    destruct (Hl ltac:(lia) ltac:(assumption) Pl (K (bkw o) :: pe r ++ rest)) as (HH & _).
    { intros _. destruct o; reflexivity. }
    rewrite HH; [|apply btier_le | exact W |].
    2: { unfold stopk. rewrite clevel_op. apply Nat.ltb_lt. lia. }
    apply (loop_step (opq (btier o) self) binf l _ (o, r)).
    + apply shr_tier_op. apply shr_Pk, Hs.
    + unfold opq. rewrite (bind_eq _ _ _ _ _ (opq_op o _)).
      rewrite (bind_eq _ _ _ r rest); [reflexivity|].
      apply at_level; [|pose proof (btier_le o); lia | lia | exact St].
      apply Hr; auto. lia.
  - repeat (apply andb_prop in W as [W ?]). apply andb_prop in Pr as [Pf Pes]. apply Nat.leb_le in W.
    apply from_post; [reflexivity | |].
    { cbn [pe]. rewrite <- app_assoc. pose proof (pe_not_unary f ltac:(assumption) W). destruct (pe f); [discriminate | assumption]. }
    cbn [pe]. rewrite <- app_assoc. cbn [app]. rewrite <- app_assoc. cbn [app].
    destruct (Hf ltac:(lia) ltac:(assumption) Pf (K KLParen :: psep KComma (map pe es) ++ K KRParen :: rest)) as (_ & _ & _ & HH).
    { intros _. reflexivity. }
    rewrite HH by exact W.
    apply (loop_step (post_p self) apply_post f _ (PCall es)); [apply shr_post_p, Hs|].
    apply orelse_l. unfold call_p. rewrite (bind_eq _ _ _ es rest); [reflexivity|].
    apply delim_ok, self_list; auto; try reflexivity; try discriminate. lia.
  - repeat (apply andb_prop in W as [W ?]). apply Nat.leb_le in W.
    apply from_post; [reflexivity | |].
    { cbn [pe]. rewrite <- app_assoc. pose proof (pe_not_unary a ltac:(assumption) W). destruct (pe a); [discriminate | assumption]. }
    cbn [pe]. rewrite <- app_assoc. cbn [app].
    destruct (Ha ltac:(lia) ltac:(assumption) Pr (K KDot :: TId f :: rest)) as (_ & _ & _ & HH).
    { intros _. reflexivity. }
    rewrite HH by exact W.
    apply (loop_step (post_p self) apply_post a _ (PMem f)); [apply shr_post_p, Hs | reflexivity].
  - repeat (apply andb_prop in W as [W ?]). apply andb_prop in Pr as [Pa Pi]. apply Nat.leb_le in W.
    apply from_post; [reflexivity | |].
    { cbn [pe]. rewrite <- app_assoc. pose proof (pe_not_unary a ltac:(assumption) W). destruct (pe a); [discriminate | assumption]. }
    cbn [pe]. rewrite <- app_assoc. cbn [app]. rewrite <- app_assoc. cbn [app].
    destruct (Ha ltac:(lia) ltac:(assumption) Pa (K KLBrack :: pe i ++ K KRBrack :: rest)) as (_ & _ & _ & HH).
    { intros _. reflexivity. }
    rewrite HH by exact W.
    apply (loop_step (post_p self) apply_post a _ (PIdx i)); [apply shr_post_p, Hs|].
    unfold post_p. do 3 (rewrite orelse_r by reflexivity).
    unfold idx_p. rewrite (bind_eq _ _ _ i rest); [reflexivity|].
    apply delim_ok, IH; auto; [lia|]. intros _. reflexivity.
  - apply andb_prop in W as [W1 W2]. apply from_atom; [reflexivity | reflexivity |].
    cbn [pe app]. rewrite <- app_assoc. cbn [app]. unfold atom.
    do 3 (rewrite orelse_r by reflexivity). apply orelse_l.
    unfold struct_p. rewrite bind_ident.
    rewrite (bind_eq _ _ _ fs rest); [reflexivity|]. apply delim_ok.
    apply sept_ok; [apply shr_field, Hs | reflexivity | reflexivity |].
    intros [x e] Hx r0 Hr0. cbn [fst snd app]. unfold field_p.
    rewrite bind_ident. rewrite bind_just.
    rewrite (bind_eq _ _ _ e r0); [reflexivity|].
    pose proof (forallb_in _ _ _ W2 Hx) as Wx. cbn in Wx. apply andb_prop in Wx as [_ Wx].
    pose proof (forallb_in _ _ _ Pr Hx) as Px. cbn in Px.
    pose proof (maxl_in (fun fe : string * expr => hgt (snd fe)) fs _ Hx) as Hm. cbn [snd] in Hm.
    apply IH; auto; [lia | |]; destruct Hr0 as [-> | (r' & ->)]; try reflexivity; intros _; reflexivity.
  - apply from_atom; [reflexivity | reflexivity |].
    cbn [pe app]. rewrite <- app_assoc. cbn [app]. unfold atom.
    apply andb_prop in Pr as [Ps Pf].
    do 7 (rewrite orelse_r by reflexivity).
    destruct es as [|a [|b l]]; [reflexivity | discriminate |].
    unfold paren_p. rewrite bind_just, orelse_r.
    + rewrite psep_cons, <- app_assoc.
      rewrite (bind_eq _ _ _ a (tails KComma pe (b :: l) ++ K KRParen :: rest)).
      2: { apply (self_in (a :: b :: l)); auto; try reflexivity; [lia | left; reflexivity | discriminate]. }
      cbn [tails flat_map app]. change (K KComma :: (pe b ++ flat_map (fun x => K KComma :: pe x) l) ++ K KRParen :: rest)
        with (tails KComma pe (b :: l) ++ K KRParen :: rest).
      rewrite (bind_eq _ _ _ (b :: l) (K KRParen :: rest)).
      * reflexivity.
      * apply tails_ok; [exact Hs | left; reflexivity |]. intros x Hx r Hr.
        apply (self_in (a :: b :: l)); auto; [lia | right; exact Hx | |].
        -- destruct Hr as [-> | (r' & ->)]; reflexivity.
        -- intros y ->. destruct Hr as [Hr | (r' & Hr)]; discriminate.
    + rewrite psep_cons, <- app_assoc. pose proof (pe_start a) as Hst. apply bind_fail.
      destruct (pe a) as [|[| |k] ts]; try discriminate; try reflexivity. destruct k; try discriminate; reflexivity.
  - repeat (apply andb_prop in W as [W ?]). apply Nat.leb_le in W.
    apply from_post; [reflexivity | |].
    { cbn [pe]. rewrite <- app_assoc. pose proof (pe_not_unary a ltac:(assumption) W). destruct (pe a); [discriminate | assumption]. }
    cbn [pe]. rewrite <- app_assoc. cbn [app].
    destruct (Ha ltac:(lia) ltac:(assumption) Pr (K KDot :: TNum i None :: rest)) as (_ & _ & _ & HH).
    { intros _. reflexivity. }
    rewrite HH by exact W.
    apply (loop_step (post_p self) apply_post a _ (PTup i)); [apply shr_post_p, Hs | reflexivity].
  - apply from_atom; [reflexivity | reflexivity |].
    cbn [pe app]. rewrite <- app_assoc. cbn [app]. unfold atom.
    do 4 (rewrite orelse_r by reflexivity). rewrite orelse_r.
    + apply orelse_l. unfold arr_p. rewrite (bind_eq _ _ _ es rest); [reflexivity|].
      apply delim_ok, self_list; auto; try reflexivity; try discriminate. lia.
    + unfold rep_p. rewrite bind_just. destruct es as [|a l].
      * apply bind_fail. cbn in Hh. apply self_fail; [lia | reflexivity].
      * rewrite psep_cons, <- app_assoc.
        rewrite (bind_eq _ _ _ a (tails KComma pe l ++ K KRBrack :: rest)).
        -- apply bind_fail. destruct l; reflexivity.
        -- apply (self_in (a :: l)); auto; [lia | left; reflexivity | destruct l; reflexivity | destruct l; discriminate].
  - apply andb_prop in W as [W1 W2]. apply from_atom; [reflexivity | reflexivity |].
    cbn [pe app]. rewrite <- app_assoc. cbn [app]. unfold atom.
    do 4 (rewrite orelse_r by reflexivity). apply orelse_l. unfold rep_p. rewrite bind_just.
    rewrite (bind_eq _ _ _ a (K KSemi :: TNum n None :: K KRBrack :: rest)).
    + rewrite bind_just. reflexivity.
    + apply IH; auto; [lia|]. intros _. reflexivity.
  - repeat (apply andb_prop in W as [W ?]). apply andb_prop in Pr as [Pa Pt]. apply Nat.leb_le in W.
    destruct t as [n|t|ts|t n]; try discriminate.
    apply from_cast; [reflexivity | | cbn; lia | cbn; lia]. intro St.
    cbn [pe pty]. rewrite <- app_assoc. cbn [app].
    destruct (Ha ltac:(lia) ltac:(assumption) Pa (K KAs :: TId (named_text n) :: rest)) as (_ & HH & _).
    { intros _. reflexivity. }
    rewrite HH; [|exact W | reflexivity].
    apply (loop_step castq ECast a _ (TyName n)); [apply shr_cast_op|].
    unfold castq. rewrite bind_just. unfold named_ty. rewrite bind_ident.
    rewrite name_ok by assumption. reflexivity.
  - repeat (apply andb_prop in W as [W ?]). apply andb_prop in Pr as [Pt Pn].
    apply from_atom; [reflexivity | reflexivity |].
    cbn [pe app]. rewrite <- app_assoc. cbn [app]. rewrite <- app_assoc. cbn [app]. unfold atom.
    do 2 (rewrite orelse_r by reflexivity). apply orelse_l. unfold new_p. rewrite bind_just.
    rewrite (bind_eq _ _ _ _ _ (alloc_p_rt t (K KLBrack :: pe n ++ K KRBrack :: rest) ltac:(assumption) ltac:(assumption) Pt eq_refl)).
    rewrite (bind_eq _ _ _ n rest); [reflexivity|].
    apply delim_ok, IH; auto; [lia|]. intros _. reflexivity.
  - apply from_atom; [reflexivity | reflexivity |].
    cbn [pe app]. rewrite <- app_assoc. cbn [app]. unfold atom.
    do 7 (rewrite orelse_r by reflexivity).
    unfold paren_p. rewrite bind_just, orelse_r.
    + rewrite (bind_eq _ _ _ a (K KRParen :: rest)); [reflexivity|].
      apply IH; auto; [lia|]. intros _. reflexivity.
    + pose proof (pe_start a) as Hst. apply bind_fail.
      destruct (pe a) as [|[| |k] ts]; try discriminate; try reflexivity. destruct k; try discriminate; reflexivity.
Qed.
End RT.

Theorem expr_n_rt n : forall e rest, hgt e < n -> wfe e = true -> pre e = true -> stopk 0 rest = true ->
  okid e rest -> expr_n n (pe e ++ rest) = POk e rest.
Proof.
  induction n as [|m IH]; intros e rest Hh W Pr St Ho; [lia|].
  apply (at_tier m e rest _ 0); [|lia | lia | exact St]. apply rt_one; auto.
Qed.
Theorem expr_rt e rest : wfe e = true -> pre e = true -> stopk 0 rest = true -> okid e rest ->
  expr_p (pe e ++ rest) = POk e rest.
Proof.
  intros. unfold expr_p, fueled. apply expr_n_rt; auto. pose proof (hgt_len e). rewrite app_length. lia.
Qed.
