(** The lexer: source text to tokens.

    Models crates/compiler/parser/src/lexer.rs.  Text is a list of bytes; the generated
    automaton (logos, longest match) is written out by hand: a maximal run of letters, digits
    and underscores is one token (a number if it starts with a digit, otherwise a keyword or
    an identifier), the other tokens have one or two characters.  Positions of tokens and the
    wording of errors are not modelled. *)
From Coq Require Import NArith Bool Ascii String List.
Import ListNotations.
Open Scope string_scope.
Open Scope bool_scope.

(** lexer.rs 160-269: the tokens without a payload. *)
Inductive kw : Set :=
| KAs | KConst | KElse | KFalse | KFn | KIf | KLet | KNew | KReturn | KStruct | KTrue
| KWhile | KLoop | KFor | KIn | KBreak | KContinue | KUse
| KNot | KAndAnd | KOrOr | KAnd | KOr | KXor
| KEqEq | KNeq | KLe | KGe | KLt | KGt
| KPlus | KMinus | KStar | KDiv | KMod | KEq
| KArrow | KLParen | KRParen | KLBrace | KRBrace | KLBrack | KRBrack
| KComma | KSemi | KColon | KColons | KDot.

(** lexer.rs 160-269: [TokenType]; 9-13: [NumberLiteral]. *)
Inductive token : Set :=
| TNum (v : N) (suffix : option string)
| TId (s : string)
| K (k : kw).

(** Characters. *)
Definition code (c : ascii) : N := N_of_ascii c.
Definition between (lo hi : ascii) (c : ascii) : bool :=
  (code lo <=? code c)%N && (code c <=? code hi)%N.
Definition is_digit (c : ascii) : bool := between "0" "9" c.
Definition is_alpha (c : ascii) : bool :=
  between "a" "z" c || between "A" "Z" c || (c =? "_")%char.
Definition is_word (c : ascii) : bool := is_alpha c || is_digit c.
Definition newline : ascii := ascii_of_N 10.
Definition space : ascii := " ".
(** lexer.rs 157: white space. *)
Definition is_ws (c : ascii) : bool :=
  (c =? space)%char || (c =? newline)%char || (c =? ascii_of_N 9)%char
  || (c =? ascii_of_N 13)%char.

(** lexer.rs 168-204: keywords. *)
Definition keywords : list (string * kw) :=
  [ ("as", KAs); ("const", KConst); ("else", KElse); ("false", KFalse); ("fn", KFn);
    ("if", KIf); ("let", KLet); ("new", KNew); ("return", KReturn); ("struct", KStruct);
    ("true", KTrue); ("while", KWhile); ("loop", KLoop); ("for", KFor); ("in", KIn);
    ("break", KBreak); ("continue", KContinue); ("use", KUse) ].
Fixpoint assoc (s : string) (l : list (string * kw)) : option kw :=
  match l with
  | [] => None
  | (k, v) :: r => if (s =? k)%string then Some v else assoc s r
  end.
Definition keyword (s : string) : option kw := assoc s keywords.

(** ** Numbers *)
(** core [char::to_digit], digits of the bases 2, 8, 10 and 16. *)
Definition digit_value (c : ascii) : option N :=
  if is_digit c then Some (code c - 48)%N
  else if between "a" "f" c then Some (code c - 87)%N
  else if between "A" "F" c then Some (code c - 55)%N
  else None.
Definition digit (base : N) (c : ascii) : option N :=
  match digit_value c with
  | Some d => if (d <? base)%N then Some d else None
  | None => None
  end.
(** core [u64::from_str_radix] on a non-empty string: fails on a bad digit and on
    overflow. *)
Fixpoint radix (base acc : N) (s : string) : option N :=
  match s with
  | EmptyString => Some acc
  | String c r =>
      match digit base c with
      | Some d =>
          let v := (acc * base + d)%N in
          if (v <? 2 ^ 64)%N then radix base v r else None
      | None => None
      end
  end.
(** core [str::rfind] for a string pattern. *)
Fixpoint rfind (pat s : string) : option nat :=
  match s with
  | EmptyString => if prefix pat s then Some 0 else None
  | String _ r =>
      match rfind pat r with
      | Some n => Some (S n)
      | None => if prefix pat s then Some 0 else None
      end
  end.
(** core [str::find] for the first character that is not a digit. *)
Fixpoint find_not_digit (base : N) (s : string) : option nat :=
  match s with
  | EmptyString => None
  | String c r =>
      match digit base c with
      | Some _ => option_map S (find_not_digit base r)
      | None => Some 0
      end
  end.
Fixpoint drop (n : nat) (s : string) : string :=
  match n, s with
  | S m, String _ r => drop m r
  | _, _ => s
  end.
Fixpoint take (n : nat) (s : string) : string :=
  match n, s with
  | S m, String c r => String c (take m r)
  | _, _ => ""
  end.

(** lexer.rs 6: [VALID_SUFFIXES]. *)
Definition valid_suffixes : list string := ["felt"; "u32"].
(** lexer.rs 90-112: where a suffix starts. *)
Definition suffix_pos (s suf : string) : option nat :=
  match rfind suf s with
  | Some p =>
      Some (if Nat.ltb 0 p && (drop p s =? suf)%string then p else String.length s)
  | None => None
  end.
Definition min_pos (a b : option nat) : option nat :=
  match a, b with
  | Some x, Some y => Some (Nat.min x y)
  | Some x, None => Some x
  | None, y => y
  end.
Definition digit_end (base : N) (s : string) : nat :=
  match min_pos (suffix_pos s "felt") (suffix_pos s "u32") with
  | Some p => p
  | None => match find_not_digit base s with Some p => p | None => String.length s end
  end.
(** lexer.rs 79-88: the base. *)
Definition split_base (w : string) : string * N :=
  match w with
  | String "0" (String "x" r) | String "0" (String "X" r) => (r, 16%N)
  | String "0" (String "o" r) | String "0" (String "O" r) => (r, 8%N)
  | String "0" (String "b" r) | String "0" (String "B" r) => (r, 2%N)
  | _ => (w, 10%N)
  end.
(** lexer.rs 74-155: [parse_number_literal]. *)
Definition number (w : string) : option token :=
  let '(rem, base) := split_base w in
  let p := digit_end base rem in
  let num := take p rem in
  let suf := drop p rem in
  if (num =? "")%string then None
  else
    match suf with
    | EmptyString => option_map (fun v => TNum v None) (radix base 0 num)
    | String c _ =>
        if is_digit c then None
        else option_map (fun v => TNum v (Some suf)) (radix base 0 num)
    end.

(** A maximal run of word characters: lexer.rs 162-166 (numbers), 205-207 (identifiers). *)
Definition word (w : string) : option token :=
  match w with
  | EmptyString => None
  | String c _ =>
      if is_digit c then number w
      else match keyword w with Some k => Some (K k) | None => Some (TId w) end
  end.

(** lexer.rs 212-269: tokens of two characters and of one. *)
Definition two_table : list (ascii * ascii * kw) :=
  [ ("&", "&", KAndAnd); ("|", "|", KOrOr); ("=", "=", KEqEq); ("!", "=", KNeq);
    ("<", "=", KLe); (">", "=", KGe); ("-", ">", KArrow); (":", ":", KColons) ]%char.
Definition one_table : list (ascii * kw) :=
  [ ("!", KNot); ("&", KAnd); ("|", KOr); ("^", KXor); ("<", KLt); (">", KGt);
    ("+", KPlus); ("-", KMinus); ("*", KStar); ("/", KDiv); ("%", KMod); ("=", KEq);
    ("(", KLParen); (")", KRParen); ("{", KLBrace); ("}", KRBrace); ("[", KLBrack);
    ("]", KRBrack); (",", KComma); (";", KSemi); (":", KColon); (".", KDot) ]%char.
Definition two (c d : ascii) : option kw :=
  option_map snd (find (fun x => (fst (fst x) =? c)%char && (snd (fst x) =? d)%char) two_table).
Definition one (c : ascii) : option kw :=
  option_map snd (find (fun x => (fst x =? c)%char) one_table).
Definition slashes (c d : ascii) : bool := (c =? "/")%char && (d =? "/")%char.

Definition more (t : option (list token)) (r : option (list token)) : option (list token) :=
  match t, r with
  | Some a, Some b => Some (a ++ b)%list
  | _, _ => None
  end.
Definition flush (acc : string) : option (list token) :=
  match acc with
  | EmptyString => Some []
  | _ => option_map (fun t => [t]) (word acc)
  end.
Definition sym (k : option kw) : option (list token) := option_map (fun k => [K k]) k.

(** lexer.rs 157-159 and parser.rs 575-597: the tokens of a text; one error is enough to
    give up.  [acc] is the word read so far, [com] says whether we are in a comment. *)
Fixpoint go (acc : string) (com : bool) (s : string) : option (list token) :=
  match s with
  | EmptyString => flush acc
  | String c r =>
      if com then go "" (negb (c =? newline)%char) r
      else if is_word c then go (acc ++ String c "") false r
      else
        more (flush acc)
          (if is_ws c then go "" false r
           else
             match r with
             | EmptyString => sym (one c)
             | String d r2 =>
                 if slashes c d then go "" true r2
                 else
                   match two c d with
                   | Some k => more (Some [K k]) (go "" false r2)
                   | None => more (sym (one c)) (go "" false r)
                   end
             end)
  end.
Definition lex (s : string) : option (list token) := go "" false s.
