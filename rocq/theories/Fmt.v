(** The source formatter.

    Models crates/compiler/formatter: the document language and its renderer (doc.rs), and
    the layout rules (rules/).  Which comment is attached to which item or statement
    (trivia.rs, comment_attachment.rs, simple_comment_preserver.rs) is a parameter
    ([comments]): theorems quantify over it. *)
From Coq Require Import NArith Bool Ascii String List.
From Verif Require Import Lex Syn.
Import ListNotations.
Open Scope string_scope.
Open Scope bool_scope.

(** ** Documents *)
(** doc.rs 3-18: [Doc]. *)
Inductive doc : Set :=
| Nil
| Text (s : string)
| Line
| SoftLine
| Group (d : doc)
| Indent (w : nat) (d : doc)
| Concat (ds : list doc).

(** doc.rs 49-63: [join]. *)
Fixpoint interleave (s : doc) (ds : list doc) : list doc :=
  match ds with
  | [] => []
  | [d] => [d]
  | d :: r => d :: s :: interleave s r
  end.
Definition join (s : doc) (ds : list doc) : doc :=
  match ds with [] => Nil | _ => Concat (interleave s ds) end.
(** doc.rs 105-125: [strip_trailing_semicolon]. *)
Fixpoint strip_last (ds : list doc) : list doc :=
  match ds with
  | [] => []
  | [Text s] => if (s =? ";")%string then [] else [Text s]
  | d :: r => d :: strip_last r
  end.
Fixpoint drop_semi (s : string) : string :=
  match s with
  | EmptyString => ""
  | String c EmptyString => if (c =? ";")%char then "" else s
  | String c r => String c (drop_semi r)
  end.
Definition strip_semi (d : doc) : doc :=
  match d with
  | Concat ds => Concat (strip_last ds)
  | Text s => Text (drop_semi s)
  | _ => d
  end.

(** doc.rs 215-243: [fits], [measure]: the width left, if the document fits on one line. *)
Inductive mode : Set := Flat | Break.
Fixpoint measure (d : doc) (w : nat) (m : mode) : option nat :=
  match d with
  | Nil => Some w
  | Text s => if Nat.ltb w (String.length s) then None else Some (w - String.length s)
  | Line => None
  | SoftLine => match m with Flat => match w with O => None | S v => Some v end | Break => None end
  | Group i => measure i w Flat
  | Indent _ i => measure i w m
  | Concat ds =>
      (fix all (l : list doc) (w : nat) : option nat :=
         match l with
         | [] => Some w
         | d :: r => match measure d w m with Some v => all r v | None => None end
         end) ds w
  end.

(** core [char::is_whitespace], for ASCII. *)
Definition is_white (c : ascii) : bool :=
  (code c =? 32)%N || ((9 <=? code c)%N && (code c <=? 13)%N).
Fixpoint spaces (n : nat) : string :=
  match n with O => "" | S m => String space (spaces m) end.
(** doc.rs 184-207: indent the lines of rendered text; [start]: at the start of a line; the
    column is carried along. *)
Fixpoint indented (w : nat) (start : bool) (s : string) (pos : nat) : string * nat :=
  match s with
  | EmptyString => ("", pos)
  | String c r =>
      let here := start && negb (is_white c) in
      let pos1 := if here then pos + w else pos in
      let '(start', pos') :=
        if (c =? newline)%char then (true, 0)
        else ((if here then false else start), pos1 + 1) in
      let '(out, p) := indented w start' r pos' in
      ((if here then spaces w else "") ++ String c out, p)
  end.
(** doc.rs 156-213: [render_doc]: the text appended and the new column. *)
Fixpoint render_doc (width : nat) (d : doc) (m : mode) (pos : nat) : string * nat :=
  match d with
  | Nil => ("", pos)
  | Text s => (s, pos + String.length s)
  | Line => (String newline "", 0)
  | SoftLine =>
      match m with
      | Flat => (String space "", pos + 1)
      | Break => (String newline "", 0)
      end
  | Group i =>
      let m' := match measure i (width - pos) Flat with Some _ => Flat | None => Break end in
      render_doc width i m' pos
  | Indent w i => indented w (Nat.eqb pos 0) (fst (render_doc width i m 0)) pos
  | Concat ds =>
      (fix all (l : list doc) (pos : nat) : string * nat :=
         match l with
         | [] => ("", pos)
         | d :: r =>
             let '(a, p) := render_doc width d m pos in
             let '(b, q) := all r p in
             (a ++ b, q)
         end) ds pos
  end.
(** doc.rs 127-132: [render]. *)
Definition render (width : nat) (d : doc) : string := fst (render_doc width d Flat 0).

(** ** Numbers *)
(** core [u64::to_string]; [n] bounds the number of digits. *)
Fixpoint dec_n (n : nat) (v : N) (acc : string) : string :=
  match n with
  | O => acc
  | S m =>
      let acc' := String (ascii_of_N (48 + v mod 10)) acc in
      if (v <? 10)%N then acc' else dec_n m (v / 10) acc'
  end.
Definition dec (v : N) : string := dec_n (S (N.to_nat (N.log2 v))) v "".

(** ** Layout rules *)
(** utils.rs. *)
Definition commas (ds : list doc) : doc := join (Text ", ") ds.
Definition parens (d : doc) : doc := Concat [Text "("; d; Text ")"].
Definition braces (d : doc) : doc := Concat [Text "{"; d; Text "}"].

(** rules/types.rs. *)
Definition fmt_named (n : named) : doc :=
  Text (match n with NFelt => "felt" | NBool => "bool" | NU32 => "u32" | NCustom s => s end).
Fixpoint fmt_ty (t : ty) : doc :=
  match t with
  | TyName n => fmt_named n
  | TyPtr i => Concat [fmt_ty i; Text "*"]
  | TyTuple ts => parens (commas (map fmt_ty ts))
  | TyArr i n => Concat [Text "["; fmt_ty i; Text "; "; Text (dec n); Text "]"]
  end.

(** rules/expressions.rs 117-149. *)
Definition bop_text (o : bop) : string :=
  match o with
  | BAdd => "+" | BSub => "-" | BMul => "*" | BDiv => "/" | BMod => "%"
  | BEq => "==" | BNeq => "!=" | BLt => "<" | BGt => ">" | BLe => "<=" | BGe => ">="
  | BAnd => "&&" | BOr => "||" | BBitAnd => "&" | BBitOr => "|" | BBitXor => "^"
  end.
Definition uop_text (o : uop) : string := match o with UNot => "!" | UNeg => "-" end.
(** rules/expressions.rs 8-115. *)
Fixpoint fmt_expr (e : expr) : doc :=
  match e with
  | ELit v s => Text (dec v ++ match s with Some x => x | None => "" end)
  | EBool b => Text (if b then "true" else "false")
  | EId x => Text x
  | EUn o a => Concat [Text (uop_text o); fmt_expr a]
  | EBin o l r =>
      Group (Concat [fmt_expr l; SoftLine; Text (bop_text o); SoftLine; fmt_expr r])
  | ECall f es => Concat [fmt_expr f; parens (commas (map fmt_expr es))]
  | EIdx a i => Concat [fmt_expr a; Text "["; fmt_expr i; Text "]"]
  | EMem a f => Concat [fmt_expr a; Text "."; Text f]
  | ETuple es => parens (commas (map fmt_expr es))
  | EStruct n fs =>
      Concat [Text n; Text " ";
              braces (commas (map (fun fe => Concat [Text (fst fe); Text ": "; fmt_expr (snd fe)]) fs))]
  | ETupIdx a i => Concat [fmt_expr a; Text "."; Text (dec i)]
  | EArr es => Concat [Text "["; commas (map fmt_expr es); Text "]"]
  | ERep a n => Concat [Text "["; fmt_expr a; Text "; "; Text (dec n); Text "]"]
  | ECast a t => Concat [fmt_expr a; Text " as "; fmt_ty t]
  | ENew t n => Concat [Text "new "; fmt_ty t; Text "["; fmt_expr n; Text "]"]
  | EPar a => parens (fmt_expr a)
  end.

(** rules/statements.rs 159-173. *)
Fixpoint fmt_pat (p : pat) : doc :=
  match p with
  | PId x => Text x
  | PTuple ps => Concat [Text "("; join (Text ", ") (map fmt_pat ps); Text ")"]
  end.

(** rules/items.rs 146-157: the type annotation of a constant is not printed. *)
Definition fmt_const (c : cdef) : doc :=
  Concat [Text "const"; Text " "; Text (c_name c); Text " = "; fmt_expr (c_val c); Text ";"].

(** rules/statements.rs 30-157; [iw] is the indentation width.  The statements of a block
    are formatted without their comments. *)
Fixpoint fmt_stmt (iw : nat) (s : stmt) : doc :=
  match s with
  | SLet p t e =>
      Concat ([Text "let"; Text " "; fmt_pat p]
              ++ match t with Some t => [Text ": "; fmt_ty t] | None => [] end
              ++ [Text " = "; fmt_expr e; Text ";"])%list
  | SConst c => fmt_const c
  | SAssign l r => Concat [fmt_expr l; Text " = "; fmt_expr r; Text ";"]
  | SReturn o =>
      Concat ([Text "return"] ++ match o with Some e => [Text " "; fmt_expr e] | None => [] end
              ++ [Text ";"])%list
  | SExpr e => Concat [fmt_expr e; Text ";"]
  | SIf c a b =>
      Concat ([Text "if"; Text " "; fmt_expr c; Text " "; fmt_stmt iw a]
              ++ match b with
                 | Some b => [Text " "; Text "else"; Text " "; fmt_stmt iw b]
                 | None => []
                 end)%list
  | SBlock l =>
      Concat ([Text "{"]
              ++ match l with
                 | [] => []
                 | _ => [Indent iw (Concat (map (fun s => Concat [Line; fmt_stmt iw s]) l)); Line]
                 end
              ++ [Text "}"])%list
  | SLoop b => Concat [Text "loop"; Text " "; fmt_stmt iw b]
  | SWhile c b => Concat [Text "while"; Text " "; fmt_expr c; Text " "; fmt_stmt iw b]
  | SFor i c st b =>
      Concat [Text "for"; Text " "; Text "("; fmt_stmt iw i; Text " "; fmt_expr c; Text ";"; Text " ";
              match st with SExpr e => fmt_expr e | _ => strip_semi (fmt_stmt iw st) end;
              Text ")"; Text " "; fmt_stmt iw b]
  | SBreak => Text "break;"
  | SContinue => Text "continue;"
  end.

(** ** Comments *)
(** doc.rs 65-103. *)
Definition with_leading (cs : list string) (d : doc) : doc :=
  Concat (flat_map (fun c => [Text c; Line]) cs ++ [d])%list.
Definition with_trailing (d : doc) (cs : list string) : doc :=
  Concat (d :: flat_map (fun c => [Text " "; Text c]) cs).
Definition with_eol (d : doc) (c : string) : doc := Concat [d; Text " "; Text c].

(** The comments attached to an item, and to the statements of a function body. *)
Record icomments : Set := Icm {
  ic_lead : list string;
  ic_trail : list string;
  ic_stmt : nat -> list string * list string }.
(** The comments of a file: those before the code, and those of the items. *)
Record comments : Set := Cm { cm_head : list string; cm_item : nat -> icomments }.

(** rules/statements.rs 8-28: only the first trailing comment is printed.
    [lead], [trail]: [None] in the code when there is no entry; same as empty here. *)
Definition fmt_body_stmt (iw : nat) (cm : list string * list string) (s : stmt) : doc :=
  let d := match fst cm with [] => fmt_stmt iw s | cs => with_leading cs (fmt_stmt iw s) end in
  match snd cm with [] => d | c :: _ => with_eol d c end.

(** rules/items.rs 58-109: the empty tuple as result type is not printed. *)
Definition mapi {A B} (f : nat -> A -> B) : nat -> list A -> list B :=
  fix go n l := match l with [] => [] | a :: r => f n a :: go (S n) r end.
Definition is_unit (t : ty) : bool := match t with TyTuple [] => true | _ => false end.
Definition fmt_param (p : string * ty) : doc := Concat [Text (fst p); Text ": "; fmt_ty (snd p)].
Definition fmt_fn (iw : nat) (cm : icomments) (f : fdef) : doc :=
  Concat ([Text "fn"; Text " "; Text (f_name f); parens (commas (map fmt_param (f_params f)))]
          ++ (if is_unit (f_ret f) then [] else [Text " -> "; fmt_ty (f_ret f)])
          ++ [Text " {"]
          ++ match f_body f with
             | [] => []
             | _ => [Indent iw (Concat (mapi (fun i s => Concat [Line; fmt_body_stmt iw (ic_stmt cm i) s]) 0 (f_body f)));
                     Line]
             end
          ++ [Text "}"])%list.
(** rules/items.rs 111-144. *)
Definition fmt_struct (iw : nat) (s : sdef) : doc :=
  Concat ([Text "struct"; Text " "; Text (s_name s); Text " {"]
          ++ match s_fields s with
             | [] => []
             | fs => [Indent iw (Concat (map (fun ft =>
                        Concat [Line; Text (fst ft); Text ": "; fmt_ty (snd ft); Text ","]) fs)); Line]
             end
          ++ [Text "}"])%list.
(** rules/items.rs 159-190. *)
Definition fmt_use (u : use) : doc :=
  Concat [Text "use"; Text " "; Text (String.concat "::" (u_path u)); Text "::";
          match u_items u with
          | USingle x => Text x
          | UList xs => braces (commas (map Text xs))
          end; Text ";"].
(** rules/items.rs 32-56. *)
Definition fmt_item (iw : nat) (cm : icomments) (i : item) : doc :=
  let d := match i with
           | IFn f => fmt_fn iw cm f
           | IStruct s => fmt_struct iw s
           | IConst c => fmt_const c
           | IUse u => fmt_use u
           end in
  let d := match ic_lead cm with [] => d | cs => with_leading cs d end in
  match ic_trail cm with [] => d | cs => with_trailing d cs end.
(** rules/items.rs 10-30: a blank line between items. *)
Definition fmt_module (iw : nat) (cm : nat -> icomments) (m : module) : doc :=
  Concat (List.concat (mapi (fun n i => ((match n with O => [] | S _ => [Line; Line] end) ++ [fmt_item iw (cm n) i])%list) 0 m)
          ++ match m with [] => [] | _ => [Line] end)%list.

(** api.rs 29-46, simple_comment_preserver.rs: the comments at the head of the file come
    first, one per line. *)
Definition header (cs : list string) : string :=
  String.concat "" (map (fun c => c ++ String newline "") cs).
Definition format_module (width iw : nat) (cm : comments) (m : module) : string :=
  header (cm_head cm) ++ render width (fmt_module iw (cm_item cm) m).
