(** Tests in Markdown documents: crates/test_utils/src/mdtest/{parser,runner}.rs. *)
From Coq Require Import String Ascii List Bool Arith DecimalString.
Import ListNotations.
Local Open Scope string_scope.

(** The events of the Markdown parser (the pulldown-cmark crate) that parser.rs 55-172 looks at.
    [Other] is any other event. *)
Inductive event : Type :=
  | Head (level : nat) | HeadEnd | Fence (lang : string) | Indented | BlockEnd
  | Txt (s : string) | CodeSpan (s : string) | Other.

(** parser.rs 201-211 [format_test_name]. *)
Definition format_test_name (h1 h2 h3 : string) : string :=
  if h1 =? "" then "Orphaned Test (no heading)"
  else if h2 =? "" then h1
  else if h3 =? "" then h1 ++ " - " ++ h2
  else h1 ++ " - " ++ h2 ++ " - " ++ h3.
Definition decimal (n : nat) : string := NilEmpty.string_of_uint (Nat.to_uint n).

Section Extract.
  (** [parse] is [parse_annotations] (parser.rs 213-243), the source without its annotations, and
      the annotations; [toml] is the parser for configurations.  Both are taken as they are. *)
  Variables (C M : Type) (parse : string -> string * M) (toml : string -> option C).

  (** parser.rs 19-28 [MdTest]; line numbers, which are approximate, and [files], which is always
      empty, are left out. *)
  Record test : Type := Test { t_name : string; t_source : string; t_rust : option string; t_meta : M; t_config : option C }.
  (** The variables of [extract_tests], parser.rs 32-53. *)
  Record st : Type := St {
    tests : list test; h1 : string; h2 : string; h3 : string; counts : string -> nat;
    config : option C; cairo : option (string * M); rust : option string;
    in_heading : bool; level : nat; in_code : bool; lang : string; content : string }.
  Definition start : st := St [] "" "" "" (fun _ => O) None None None false O false "" "".

  (** parser.rs 59-78, 105-125, 175-194: a pending test is finished. *)
  Definition flush (s : st) : st :=
    match cairo s with
    | None => s
    | Some (source, meta) =>
      let base := format_test_name (h1 s) (h2 s) (h3 s) in
      let n := S (counts s base) in
      let name := if Nat.eqb n 1 then base else base ++ " " ++ decimal n in
      St (tests s ++ [Test name source (rust s) meta (config s)]) (h1 s) (h2 s) (h3 s)
        (fun x => if x =? base then n else counts s x) (config s) None None
        (in_heading s) (level s) (in_code s) (lang s) (content s)
    end.
  (** parser.rs 86-100. *)
  Definition set_heading (t : string) (s : st) : st :=
    let '(a, b, c) := match level s with
                      | 1 => (t, "", "")
                      | 2 => (h1 s, t, "")
                      | 3 => (h1 s, h2 s, t)
                      | _ => (h1 s, h2 s, h3 s)
                      end in
    St (tests s) a b c (counts s) (config s) (cairo s) (rust s) (in_heading s) (level s) (in_code s) (lang s) (content s).
  Definition append (t : string) (s : st) : st :=
    St (tests s) (h1 s) (h2 s) (h3 s) (counts s) (config s) (cairo s) (rust s) (in_heading s) (level s) (in_code s) (lang s) (content s ++ t).
  Definition set_pending (c : option (string * M)) (r : option string) (g : option C) (s : st) : st :=
    St (tests s) (h1 s) (h2 s) (h3 s) (counts s) g c r (in_heading s) (level s) (in_code s) (lang s) (content s).
  (** parser.rs 106-158: the end of a code block. *)
  Definition block_end (s : st) : option st :=
    let closed s := St (tests s) (h1 s) (h2 s) (h3 s) (counts s) (config s) (cairo s) (rust s) (in_heading s) (level s) false (lang s) "" in
    if lang s =? "cairo-m" then let f := flush s in Some (closed (set_pending (Some (parse (content s))) (rust f) (config f) f))
    else if lang s =? "rust" then Some (closed (set_pending (cairo s) (Some (content s)) (config s) s))
    else if lang s =? "toml" then
      match toml (content s) with Some g => Some (closed (set_pending (cairo s) (rust s) (Some g) s)) | None => None end
    else Some (closed s).
  (** parser.rs 55-172: one event.  The start of an indented block has no case. *)
  Definition step (e : event) (s : st) : option st :=
    match e with
    | Head l =>
      let f := flush s in
      Some (St (tests f) (h1 f) (h2 f) (h3 f) (counts f) (config f) (cairo f) (rust f) true l (in_code f) (lang f) (content f))
    | HeadEnd => Some (St (tests s) (h1 s) (h2 s) (h3 s) (counts s) (config s) (cairo s) (rust s) false (level s) (in_code s) (lang s) (content s))
    | Txt t => Some (if in_heading s then set_heading t s else if in_code s then append t s else s)
    | Fence l => Some (St (tests s) (h1 s) (h2 s) (h3 s) (counts s) (config s) (cairo s) (rust s) (in_heading s) (level s) true l "")
    | BlockEnd => block_end s
    | CodeSpan t => Some (if in_code s then append t s else s)
    | Indented | Other => Some s
    end.
  Fixpoint steps (es : list event) (s : st) : option st :=
    match es with [] => Some s | e :: r => match step e s with Some s' => steps r s' | None => None end end.
  (** parser.rs 30-198 [extract_tests]. *)
  Definition extract_tests (es : list event) : option (list test) := option_map (fun s => tests (flush s)) (steps es start).
End Extract.

(** runner.rs 112-124 [sanitize_test_name], for ASCII names. *)
Definition plain (c : ascii) : ascii :=
  let n := nat_of_ascii c in
  if (Nat.leb 65 n && Nat.leb n 90)%bool then ascii_of_nat (n + 32)
  else if ((Nat.leb 97 n && Nat.leb n 122) || (Nat.leb 48 n && Nat.leb n 57) || Nat.eqb n 95)%bool then c else "_"%char.
Fixpoint sanitize (s : string) : string := match s with EmptyString => "" | String c r => String (plain c) (sanitize r) end.
