(** Which programs the formatter can print without changing them.

    The formatter forgets the comma of a one-element tuple, the type annotation of a constant,
    the parentheses around the condition of [if] and [while], and cannot print the import of a
    bare name.  [printable] says that none of this can be noticed in a program; each exclusion
    is shown to be necessary in [Prop_Syntax]. *)
From Coq Require Import NArith Bool Ascii String List.
From Verif Require Import Syn.
Import ListNotations.
Open Scope bool_scope.

Definition not_single {A} (l : list A) : bool := match l with [_] => false | _ => true end.
Definition all_opt {A} (f : A -> bool) (o : option A) : bool := match o with Some a => f a | None => true end.
(** No tuple with one element. *)
Fixpoint prt (t : ty) : bool :=
  match t with
  | TyName _ => true
  | TyPtr i => prt i
  | TyTuple ts => not_single ts && forallb prt ts
  | TyArr i _ => prt i
  end.
Fixpoint pre (e : expr) : bool :=
  match e with
  | ELit _ _ | EBool _ | EId _ => true
  | EUn _ a => pre a
  | EBin _ l r => pre l && pre r
  | ECall f es => pre f && forallb pre es
  | EMem a _ => pre a
  | EIdx a i => pre a && pre i
  | EStruct _ fs => forallb (fun fe => pre (snd fe)) fs
  | ETuple es => not_single es && forallb pre es
  | ETupIdx a _ => pre a
  | EArr es => forallb pre es
  | ERep a _ => pre a
  | ECast a t => pre a && prt t
  | ENew t n => prt t && pre n
  | EPar a => pre a
  end.
(** The expression ends with a name (which a following [{] would turn into a structure). *)
Fixpoint ends_ident (e : expr) : bool :=
  match e with
  | EId _ => true
  | EUn _ a => ends_ident a
  | EBin _ _ r => ends_ident r
  | _ => false
  end.
(** The expression at the left end. *)
Fixpoint leftmost (e : expr) : expr :=
  match e with
  | EBin _ a _ | ECall a _ | EMem a _ | EIdx a _ | ETupIdx a _ | ECast a _ => leftmost a
  | _ => e
  end.
Definition starts_paren (e : expr) : bool :=
  match leftmost e with EPar _ | ETuple _ => true | _ => false end.
(** Printed after an expression, the expression would be taken for a call, an index or a
    subtraction. *)
Definition continues (e : expr) : bool :=
  match leftmost e with EPar _ | ETuple _ | EArr _ | ERep _ _ | EUn UNeg _ => true | _ => false end.
(** A condition and the statement after it can be told apart without parentheses. *)
Definition apart (c : expr) (a : stmt) : bool :=
  negb (starts_paren c) &&
  match a with
  | SExpr e | SAssign e _ => negb (continues e)
  | SBlock [] => negb (ends_ident c)
  | _ => true
  end.
Definition prc (c : cdef) : bool :=
  match c_ty c with None => pre (c_val c) | Some _ => false end.
Fixpoint prs (s : stmt) : bool :=
  match s with
  | SLet _ t e => all_opt prt t && pre e
  | SConst c => prc c
  | SAssign l r => pre l && pre r
  | SReturn o => all_opt pre o
  | SIf c a b => pre c && apart c a && prs a && match b with Some b => prs b | None => true end
  | SExpr e => pre e
  | SBlock l => forallb prs l
  | SLoop b => prs b
  | SWhile c b => pre c && apart c b && prs b
  | SFor i c st b => prs i && pre c && prs st && prs b
  | SBreak | SContinue => true
  end.
Definition printable_item (i : item) : bool :=
  match i with
  | IFn f => forallb (fun p => prt (snd p)) (f_params f) && prt (f_ret f) && forallb prs (f_body f)
  | IStruct s => forallb (fun p => prt (snd p)) (s_fields s)
  | IConst c => prc c
  | IUse u => match u_path u with [] => false | _ => true end
  end.
Definition printable (m : module) : bool := forallb printable_item m.

(** ** Number literals *)
(** The bases and how a literal announces them. *)
Definition bases : list (string * N) :=
  [(""%string, 10%N); ("0x"%string, 16%N); ("0X"%string, 16%N); ("0o"%string, 8%N); ("0O"%string, 8%N);
   ("0b"%string, 2%N); ("0B"%string, 2%N)].
(** The digits, in order. *)
Definition lower_digits : string := "0123456789abcdef".
Definition upper_digits : string := "0123456789ABCDEF".
Fixpoint position (c : ascii) (s : string) : option N :=
  match s with
  | EmptyString => None
  | String d r => if (c =? d)%char then Some 0%N else option_map N.succ (position c r)
  end.
Definition digit_at (c : ascii) : option N :=
  match position c lower_digits with Some d => Some d | None => position c upper_digits end.
(** The number that digits denote in a base: each digit counts its power of the base. *)
Fixpoint value (base : N) (ds : string) : option N :=
  match ds with
  | EmptyString => Some 0%N
  | String c r =>
      match digit_at c, value base r with
      | Some d, Some v => if (d <? base)%N then Some (d * base ^ N.of_nat (String.length r) + v)%N else None
      | _, _ => None
      end
  end.
(** The suffixes. *)
Inductive suffix : option string -> string -> Prop :=
| no_suffix : suffix None ""
| felt_suffix : suffix (Some "felt"%string) "felt"
| u32_suffix : suffix (Some "u32"%string) "u32".

(** ** Precedence *)
(** How tightly an expression holds together; the level of the operators of the language. *)
Definition op_level (o : bop) : nat :=
  match o with
  | BAnd | BOr => 0
  | BBitAnd | BBitOr | BBitXor => 1
  | BEq | BNeq | BLt | BGt | BLe | BGe => 2
  | BAdd | BSub => 3
  | BMul | BDiv | BMod => 4
  end.
Definition level (e : expr) : nat :=
  match e with
  | EBin o _ _ => op_level o
  | ECast _ _ => 5
  | EUn _ _ => 6
  | ECall _ _ | EMem _ _ | EIdx _ _ | ETupIdx _ _ => 7
  | _ => 8
  end.
(** Operators of one level group to the left, and no operand holds together less tightly than
    its operator. *)
Fixpoint grouped (e : expr) : bool :=
  match e with
  | ELit _ _ | EBool _ | EId _ => true
  | EUn _ a => Nat.leb 6 (level a) && grouped a
  | EBin o l r => Nat.leb (op_level o) (level l) && Nat.ltb (op_level o) (level r) && grouped l && grouped r
  | ECall f es => Nat.leb 7 (level f) && grouped f && forallb grouped es
  | EMem a _ => Nat.leb 7 (level a) && grouped a
  | EIdx a i => Nat.leb 7 (level a) && grouped a && grouped i
  | EStruct _ fs => forallb (fun fe => grouped (snd fe)) fs
  | ETuple es => forallb grouped es
  | ETupIdx a _ => Nat.leb 7 (level a) && grouped a
  | EArr es => forallb grouped es
  | ERep a _ => grouped a
  | ECast a _ => Nat.leb 5 (level a) && grouped a
  | ENew _ n => grouped n
  | EPar a => grouped a
  end.
Fixpoint grouped_stmt (s : stmt) : bool :=
  match s with
  | SLet _ _ e | SExpr e => grouped e
  | SConst c => grouped (c_val c)
  | SAssign l r => grouped l && grouped r
  | SReturn o => all_opt grouped o
  | SIf c a b => grouped c && grouped_stmt a && match b with Some b => grouped_stmt b | None => true end
  | SBlock l => forallb grouped_stmt l
  | SLoop b => grouped_stmt b
  | SWhile c b => grouped c && grouped_stmt b
  | SFor i c st b => grouped_stmt i && grouped c && grouped_stmt st && grouped_stmt b
  | SBreak | SContinue => true
  end.
Definition grouped_item (i : item) : bool :=
  match i with
  | IFn f => forallb grouped_stmt (f_body f)
  | IConst c => grouped (c_val c)
  | _ => true
  end.

(** ** Comments *)
(** A comment as it stands in a source file: two slashes, and no line break. *)
Fixpoint one_line (s : string) : bool :=
  match s with EmptyString => true | String c r => negb (N_of_ascii c =? 10)%N && one_line r end.
Definition comment (s : string) : bool :=
  match s with
  | String a (String b r) => (a =? "/")%char && (b =? "/")%char && one_line r
  | _ => false
  end.
