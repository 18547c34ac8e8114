(** The parser: tokens to syntax tree.

    Models crates/compiler/parser/src/parser.rs 567-1693.  The parser combinators (chumsky)
    are ordered choice without backtracking into a choice that succeeded; [recursive] is
    modelled with fuel, and running out of fuel is a result of its own ([PFuel]), never
    confused with a parse failure.  Simplifications: positions and error messages are left
    out; an unknown literal suffix, which the code reports without stopping the parse
    (770-787), fails on the spot: both reject the text, because no other rule accepts a
    number there. *)
From Coq Require Import NArith Bool Ascii String List.
From Verif Require Import Lex Syn.
Import ListNotations.
Open Scope bool_scope.

(** ** Combinators *)
Inductive pres (A : Type) : Type :=
| POk (a : A) (rest : list token)
| PFail
| PFuel.
Arguments POk {A}. Arguments PFail {A}. Arguments PFuel {A}.
Definition parser (A : Type) := list token -> pres A.

Definition ret {A} (a : A) : parser A := fun ts => POk a ts.
Definition fail {A} : parser A := fun _ => PFail.
Definition bind {A B} (p : parser A) (k : A -> parser B) : parser B := fun ts =>
  match p ts with POk a r => k a r | PFail => PFail | PFuel => PFuel end.
(** chumsky [or], [choice]. *)
Definition orelse {A} (p q : parser A) : parser A := fun ts =>
  match p ts with POk a r => POk a r | PFail => q ts | PFuel => PFuel end.
(** chumsky [or_not]. *)
Definition opt {A} (p : parser A) : parser (option A) := fun ts =>
  match p ts with
  | POk a r => POk (Some a) r
  | PFail => POk None ts
  | PFuel => PFuel
  end.
(** chumsky [repeated]: as long as the parser succeeds. *)
Fixpoint many {A} (n : nat) (p : parser A) (ts : list token) : pres (list A) :=
  match n with
  | O => PFuel
  | S m =>
      match p ts with
      | POk a r =>
          match many m p r with
          | POk l r' => POk (a :: l) r'
          | PFail => PFail
          | PFuel => PFuel
          end
      | PFail => POk [] ts
      | PFuel => PFuel
      end
  end.
Definition repeated {A} (p : parser A) : parser (list A) := fun ts =>
  many (S (length ts)) p ts.
Notation "x <- p ;; k" := (bind p (fun x => k)) (at level 61, p at next level, right associativity).
Notation "p ;; k" := (bind p (fun _ => k)) (at level 61, right associativity).

Definition tag (k : kw) : nat :=
  match k with
  | KAs => 0 | KConst => 1 | KElse => 2 | KFalse => 3 | KFn => 4 | KIf => 5 | KLet => 6
  | KNew => 7 | KReturn => 8 | KStruct => 9 | KTrue => 10 | KWhile => 11 | KLoop => 12
  | KFor => 13 | KIn => 14 | KBreak => 15 | KContinue => 16 | KUse => 17 | KNot => 18
  | KAndAnd => 19 | KOrOr => 20 | KAnd => 21 | KOr => 22 | KXor => 23 | KEqEq => 24
  | KNeq => 25 | KLe => 26 | KGe => 27 | KLt => 28 | KGt => 29 | KPlus => 30 | KMinus => 31
  | KStar => 32 | KDiv => 33 | KMod => 34 | KEq => 35 | KArrow => 36 | KLParen => 37
  | KRParen => 38 | KLBrace => 39 | KRBrace => 40 | KLBrack => 41 | KRBrack => 42
  | KComma => 43 | KSemi => 44 | KColon => 45 | KColons => 46 | KDot => 47
  end.
Definition kw_eqb (a b : kw) : bool := Nat.eqb (tag a) (tag b).

(** chumsky [just]. *)
Definition just (k : kw) : parser unit := fun ts =>
  match ts with
  | K j :: r => if kw_eqb k j then POk tt r else PFail
  | _ => PFail
  end.
(** parser.rs 649-666: [ident_parser], [spanned_ident_parser]. *)
Definition ident : parser string := fun ts =>
  match ts with TId x :: r => POk x r | _ => PFail end.
Definition num : parser (N * option string) := fun ts =>
  match ts with TNum v s :: r => POk (v, s) r | _ => PFail end.
(** One of several tokens, with the value it stands for. *)
Fixpoint pick {A} (k : kw) (l : list (kw * A)) : option A :=
  match l with
  | [] => None
  | (j, a) :: r => if kw_eqb j k then Some a else pick k r
  end.
Definition oneof {A} (l : list (kw * A)) : parser A := fun ts =>
  match ts with
  | K k :: r => match pick k l with Some a => POk a r | None => PFail end
  | _ => PFail
  end.
(** chumsky [separated_by]: a separator that is not followed by an item is given back. *)
Definition sep {A} (s : kw) (p : parser A) : parser (list A) :=
  o <- opt p ;;
  match o with
  | None => ret []
  | Some a => l <- repeated (just s ;; p) ;; ret (a :: l)
  end.
(** chumsky [separated_by] with [allow_trailing]. *)
Definition sept {A} (s : kw) (p : parser A) : parser (list A) :=
  l <- sep s p ;;
  match l with
  | [] => ret []
  | _ => opt (just s) ;; ret l
  end.
(** chumsky [delimited_by]. *)
Definition delim {A} (a b : kw) (p : parser A) : parser A :=
  just a ;; x <- p ;; just b ;; ret x.
(** chumsky [foldl] over [repeated]. *)
Definition foldl {A B} (p : parser A) (q : parser B) (f : A -> B -> A) : parser A :=
  a <- p ;; l <- repeated q ;; ret (fold_left f l a).

(** ** Types *)
(** parser.rs 678-687, 818-827. *)
Definition name_type (x : string) : named :=
  if (x =? "felt")%string then NFelt
  else if (x =? "bool")%string then NBool
  else if (x =? "u32")%string then NU32
  else NCustom x.
Definition named_ty : parser ty := x <- ident ;; ret (TyName (name_type x)).
(** parser.rs 690-710, 842-858: one type in parentheses is that type, unless a comma
    follows. *)
Definition tuple_ty (self : parser ty) : parser ty :=
  just KLParen ;; l <- sep KComma self ;; c <- opt (just KComma) ;; just KRParen ;;
  ret (match l, c with [t], None => t | _, _ => TyTuple l end).
Definition stars (p : parser ty) : parser ty := foldl p (just KStar) (fun t _ => TyPtr t).
(** parser.rs 830-873: the types that can be allocated. *)
Definition alloc_f (self : parser ty) : parser ty := stars (orelse named_ty (tuple_ty self)).
Fixpoint alloc (n : nat) : parser ty :=
  match n with O => fun _ => PFuel | S m => alloc_f (alloc m) end.
Definition fueled {A} (p : nat -> parser A) : parser A := fun ts => p (S (length ts)) ts.

(** ** Expressions *)
(** parser.rs 769-787. *)
Definition suffix_ok (s : option string) : bool :=
  match s with
  | None => true
  | Some x => existsb (String.eqb x) valid_suffixes
  end.
Definition lit_p : parser expr :=
  v <- num ;; if suffix_ok (snd v) then ret (ELit (fst v) (snd v)) else fail.
(** parser.rs 788-793. *)
Definition bool_p : parser expr := b <- oneof [(KTrue, true); (KFalse, false)] ;; ret (EBool b).
(** parser.rs 795-798. *)
Definition id_p : parser expr := x <- ident ;; ret (EId x).
(** parser.rs 801-815. *)
Definition field_p (self : parser expr) : parser (string * expr) :=
  x <- ident ;; just KColon ;; e <- self ;; ret (x, e).
Definition struct_p (self : parser expr) : parser expr :=
  x <- ident ;; fs <- delim KLBrace KRBrace (sept KComma (field_p self)) ;; ret (EStruct x fs).
(** parser.rs 876-890. *)
Definition new_p (self : parser expr) : parser expr :=
  just KNew ;; t <- fueled alloc ;; n <- delim KLBrack KRBrack self ;; ret (ENew t n).
(** parser.rs 893-930: parentheses and tuples. *)
Definition paren_p (self : parser expr) : parser expr :=
  just KLParen ;;
  orelse (just KRParen ;; ret (ETuple []))
    (e <- self ;;
     fun ts =>
       match ts with
       | K KComma :: _ =>
           (l <- repeated (just KComma ;; self) ;; opt (just KComma) ;; just KRParen ;;
            ret (ETuple (e :: l))) ts
       | K KRParen :: r => POk (EPar e) r
       | _ => PFail
       end).
(** parser.rs 933-956: a length with a suffix is an error. *)
Definition rep_p (self : parser expr) : parser expr :=
  just KLBrack ;; e <- self ;; just KSemi ;; v <- num ;; just KRBrack ;;
  match snd v with None => ret (ERep e (fst v)) | Some _ => fail end.
(** parser.rs 959-966. *)
Definition arr_p (self : parser expr) : parser expr :=
  es <- delim KLBrack KRBrack (sept KComma self) ;; ret (EArr es).
(** parser.rs 969-976. *)
Definition atom (self : parser expr) : parser expr :=
  orelse lit_p (orelse bool_p (orelse (new_p self) (orelse (struct_p self)
    (orelse (rep_p self) (orelse (arr_p self) (orelse id_p (paren_p self))))))).

(** parser.rs 628-642: [PostfixOp]. *)
Inductive post : Set :=
| PCall (args : list expr) | PMem (f : string) | PIdx (i : expr) | PTup (i : N).
(** parser.rs 979-1011. *)
Definition call_p (self : parser expr) : parser post :=
  es <- delim KLParen KRParen (sept KComma self) ;; ret (PCall es).
Definition tup_p : parser post :=
  just KDot ;; v <- num ;; match snd v with None => ret (PTup (fst v)) | Some _ => fail end.
Definition mem_p : parser post := just KDot ;; f <- ident ;; ret (PMem f).
Definition idx_p (self : parser expr) : parser post :=
  i <- delim KLBrack KRBrack self ;; ret (PIdx i).
Definition post_p (self : parser expr) : parser post :=
  orelse (call_p self) (orelse tup_p (orelse mem_p (idx_p self))).
Definition apply_post (e : expr) (p : post) : expr :=
  match p with
  | PCall es => ECall e es
  | PMem f => EMem e f
  | PIdx i => EIdx e i
  | PTup i => ETupIdx e i
  end.
(** parser.rs 1014-1072. *)
Definition post_e (self : parser expr) : parser expr := foldl (atom self) (post_p self) apply_post.
(** parser.rs 1080-1100. *)
Definition unary_e (self : parser expr) : parser expr :=
  ops <- repeated (oneof [(KNot, UNot); (KMinus, UNeg)]) ;; e <- post_e self ;;
  ret (fold_right EUn e ops).
(** parser.rs 1103-1119. *)
Definition cast_e (self : parser expr) : parser expr :=
  foldl (unary_e self) (just KAs ;; named_ty) ECast.
(** parser.rs 1122-1242: the tiers of binary operators, from the tightest. *)
Definition tier (lower : parser expr) (ops : list (kw * bop)) : parser expr :=
  foldl lower (o <- oneof ops ;; e <- lower ;; ret (o, e)) (fun l oe => EBin (fst oe) l (snd oe)).
Definition mul_ops : list (kw * bop) := [(KStar, BMul); (KDiv, BDiv); (KMod, BMod)].
Definition add_ops : list (kw * bop) := [(KPlus, BAdd); (KMinus, BSub)].
Definition cmp_ops : list (kw * bop) :=
  [(KEqEq, BEq); (KNeq, BNeq); (KLt, BLt); (KGt, BGt); (KLe, BLe); (KGe, BGe)].
Definition bit_ops : list (kw * bop) := [(KAnd, BBitAnd); (KOr, BBitOr); (KXor, BBitXor)].
Definition log_ops : list (kw * bop) := [(KAndAnd, BAnd); (KOrOr, BOr)].
Definition mul_e self := tier (cast_e self) mul_ops.
Definition add_e self := tier (mul_e self) add_ops.
Definition cmp_e self := tier (add_e self) cmp_ops.
Definition bit_e self := tier (cmp_e self) bit_ops.
Definition log_e self := tier (bit_e self) log_ops.
(** parser.rs 758-1245: [expression_parser]. *)
Fixpoint expr_n (n : nat) : parser expr :=
  match n with O => fun _ => PFuel | S m => log_e (expr_n m) end.
Definition expr_p : parser expr := fueled expr_n.

(** parser.rs 713-738: a fixed size is any expression that turns out to be a plain
    literal. *)
Definition size_p : parser N :=
  e <- expr_p ;; match e with ELit v None => ret v | _ => fail end.
Definition arr_ty (self : parser ty) : parser ty :=
  just KLBrack ;; t <- self ;; just KSemi ;; n <- size_p ;; just KRBrack ;; ret (TyArr t n).
(** parser.rs 669-755: [type_expr_parser]. *)
Definition ty_f (self : parser ty) : parser ty :=
  stars (orelse named_ty (orelse (arr_ty self) (tuple_ty self))).
Fixpoint ty_n (n : nat) : parser ty :=
  match n with O => fun _ => PFuel | S m => ty_f (ty_n m) end.
Definition ty_p : parser ty := fueled ty_n.

(** ** Statements *)
(** parser.rs 1274-1289. *)
Definition pat_f (self : parser pat) : parser pat :=
  orelse
    (l <- delim KLParen KRParen (l <- sep KComma self ;;
        match l with _ :: _ :: _ => ret l | _ => fail end) ;; ret (PTuple l))
    (x <- ident ;; ret (PId x)).
Fixpoint pat_n (n : nat) : parser pat :=
  match n with O => fun _ => PFuel | S m => pat_f (pat_n m) end.
Definition pat_p : parser pat := fueled pat_n.

Definition ann_p : parser (option ty) := opt (just KColon ;; ty_p).
(** parser.rs 1302-1317. *)
Definition let_p : parser stmt :=
  just KLet ;; p <- pat_p ;; t <- ann_p ;; just KEq ;; e <- expr_p ;; just KSemi ;;
  ret (SLet p t e).
(** parser.rs 1320-1331, 1624-1640. *)
Definition const_p : parser cdef :=
  just KConst ;; x <- ident ;; t <- ann_p ;; just KEq ;; e <- expr_p ;; just KSemi ;;
  ret (Cdef x t e).
(** parser.rs 1334-1338, 1371-1375: [if (c)] and [if c]. *)
Definition cond_p : parser expr := orelse (delim KLParen KRParen expr_p) expr_p.
(** parser.rs 1421-1428: an assignment or an expression. *)
Definition simple_p : parser stmt :=
  l <- expr_p ;; r <- opt (just KEq ;; expr_p) ;;
  ret (match r with Some r => SAssign l r | None => SExpr l end).
(** parser.rs 1460-1468. *)
Definition simple_semi : parser stmt := s <- simple_p ;; just KSemi ;; ret s.
(** parser.rs 1291-1483. *)
Definition block_p (self : parser stmt) : parser stmt :=
  l <- delim KLBrace KRBrace (repeated self) ;; ret (SBlock l).
Definition if_p (self : parser stmt) : parser stmt :=
  just KIf ;; c <- cond_p ;; a <- self ;; b <- opt (just KElse ;; self) ;; ret (SIf c a b).
Definition loop_p (self : parser stmt) : parser stmt := just KLoop ;; b <- self ;; ret (SLoop b).
Definition while_p (self : parser stmt) : parser stmt :=
  just KWhile ;; c <- cond_p ;; b <- self ;; ret (SWhile c b).
Definition for_p (self : parser stmt) : parser stmt :=
  just KFor ;; just KLParen ;; i <- orelse let_p simple_semi ;; c <- expr_p ;; just KSemi ;;
  s <- simple_p ;; just KRParen ;; b <- self ;; ret (SFor i c s b).
Definition break_p : parser stmt := just KBreak ;; just KSemi ;; ret SBreak.
Definition continue_p : parser stmt := just KContinue ;; just KSemi ;; ret SContinue.
Definition return_p : parser stmt :=
  just KReturn ;; e <- opt expr_p ;; just KSemi ;; ret (SReturn e).
Definition stmt_f (self : parser stmt) : parser stmt :=
  orelse (block_p self) (orelse (if_p self) (orelse (loop_p self) (orelse (while_p self)
    (orelse (for_p self) (orelse break_p (orelse continue_p (orelse let_p
      (orelse (c <- const_p ;; ret (SConst c)) (orelse return_p simple_semi))))))))).
Fixpoint stmt_n (n : nat) : parser stmt :=
  match n with O => fun _ => PFuel | S m => stmt_f (stmt_n m) end.
Definition stmt_p : parser stmt := fueled stmt_n.

(** ** Items *)
(** parser.rs 1248-1261, 1551-1555. *)
Definition typed_name : parser (string * ty) :=
  x <- ident ;; just KColon ;; t <- ty_p ;; ret (x, t).
(** parser.rs 1486-1537: no result type means the empty tuple. *)
Definition fn_p : parser fdef :=
  just KFn ;; x <- ident ;; ps <- delim KLParen KRParen (sept KComma typed_name) ;;
  t <- opt (just KArrow ;; ty_p) ;;
  b <- delim KLBrace KRBrace (repeated stmt_p) ;;
  ret (Fdef x ps (match t with Some t => t | None => TyTuple [] end) b).
(** parser.rs 1540-1567. *)
Definition struct_def : parser sdef :=
  just KStruct ;; x <- ident ;; fs <- delim KLBrace KRBrace (sept KComma typed_name) ;;
  ret (Sdef x fs).
(** parser.rs 1570-1620: a path of names; the last one is the item. *)
Definition path_p : parser (list string) :=
  l <- sep KColons ident ;; match l with [] => fail | _ => ret l end.
Definition single_p : parser use :=
  l <- path_p ;; just KSemi ;; ret (Use (removelast l) (USingle (last l EmptyString))).
Definition list_p : parser use :=
  l <- path_p ;; just KColons ;; xs <- delim KLBrace KRBrace (sept KComma ident) ;;
  just KSemi ;; ret (Use l (UList xs)).
Definition use_p : parser use := just KUse ;; orelse single_p list_p.
(** parser.rs 1643-1657. *)
Definition item_p : parser item :=
  orelse (f <- fn_p ;; ret (IFn f)) (orelse (s <- struct_def ;; ret (IStruct s))
    (orelse (c <- const_p ;; ret (IConst c)) (u <- use_p ;; ret (IUse u)))).
(** parser.rs 1686-1693 and 605 ([end]). *)
Definition module_p (ts : list token) : pres module :=
  match repeated item_p ts with
  | POk m [] => POk m []
  | POk _ _ => PFail
  | PFail => PFail
  | PFuel => PFuel
  end.
(** parser.rs 569-622: [parse_file]; [None]: the text is rejected with a diagnostic. *)
Definition parse_file (s : string) : option module :=
  match lex s with
  | None => None
  | Some ts => match module_p ts with POk m _ => Some m | _ => None end
  end.
