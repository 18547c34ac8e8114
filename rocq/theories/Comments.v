(** The formatter's scan for comments and the place it gives to each of them:
    crates/compiler/formatter/src/{trivia,comment_attachment,simple_comment_preserver}.rs.
    Texts are lists of bytes. *)
From Coq Require Import String Ascii List Arith Bool.
Import ListNotations.
Open Scope nat_scope.

Definition text : Set := list ascii.
Definition nl : ascii := Ascii.ascii_of_nat 10.
Definition cr : ascii := Ascii.ascii_of_nat 13.
Definition slash : ascii := "/"%char.
Definition is (a b : ascii) : bool := Ascii.eqb a b.

(** [SimpleSpan<usize>] and trivia.rs 5-10 [Comment] ([is_line] is always true). *)
Record span : Set := Span { s_start : nat; s_end : nat }.
Record comment : Set := Comment { c_span : span; c_text : text }.

(** trivia.rs 41-69 [scan_comments]: [cur] is the comment that is being read, [i] the position. *)
Fixpoint scan (t : text) (i : nat) (cur : option (nat * text)) : list comment :=
  match cur with
  | Some (start, acc) =>
    match t with
    | [] => [Comment (Span start i) (rev acc)]
    | c :: r => if is c nl then Comment (Span start i) (rev acc) :: scan r (S i) None else scan r (S i) (Some (start, c :: acc))
    end
  | None =>
    match t with
    | [] => []
    | c :: r =>
      match r with
      | d :: r' => if is c slash && is d slash then scan r' (S (S i)) (Some (i, [slash; slash])) else scan r (S i) None
      | [] => []
      end
    end
  end.
Definition scan_comments (t : text) : list comment := scan t 0 None.

(** trivia.rs 110-131 [is_only_whitespace_or_comments]; [skip]: inside a comment. *)
Fixpoint only_blank (t : text) (skip : bool) : bool :=
  match t with
  | [] => true
  | c :: r =>
    if skip then only_blank r (negb (is c nl))
    else if is c " "%char || is c (Ascii.ascii_of_nat 9) || is c cr || is c nl then only_blank r false
    else match r with d :: r' => if is c slash && is d slash then only_blank r' true else false | [] => false end
  end.
Definition slice (t : text) (a b : nat) : text := firstn (b - a) (skipn a t).
Definition line_ends (t : text) : nat := length (filter (fun c => is c nl) t).

Inductive position : Set := Before | After | EndOfLine.
(** trivia.rs 78-108 [determine_comment_position].  Simplified: the code would panic for a node that
    starts inside a comment; there is no such node. *)
Definition determine (c n : span) (t : text) : option position :=
  if s_start c <? s_start n then if only_blank (slice t (s_end c) (s_start n)) false then Some Before else None
  else if s_end n <=? s_start c then
    let k := line_ends (slice t (s_end n) (s_start c)) in
    if k =? 0 then Some EndOfLine else if k <=? 1 then Some After else None
  else None.

(** comment_attachment.rs 242: [comment.text.trim_start().starts_with("///")]; the text starts with a slash. *)
Definition is_doc (x : text) : bool :=
  match x with a :: b :: c :: _ => is a slash && is b slash && is c slash | _ => false end.
(** comment_attachment.rs 232-262. *)
Definition distance (c n : span) : nat := if s_start c <? s_start n then s_start n - s_start c else s_start c - s_end n.
Definition rank (doc : bool) (p : position) : nat :=
  match p with EndOfLine => 0 | Before => if doc then 0 else 1 | After => if doc then 3 else 2 end.
(** [min_by_key] takes the first least one. *)
Definition less (a b : nat * nat) : bool := (fst a <? fst b) || ((fst a =? fst b) && (snd a <? snd b)).
Fixpoint min_by {A} (key : A -> nat * nat) (l : list A) : option A :=
  match l with
  | [] => None
  | x :: r => match min_by key r with Some y => if less (key y) (key x) then Some y else Some x | None => Some x end
  end.
(** comment_attachment.rs 218-270 [find_best_attachment]. *)
Definition candidates (c : comment) (nodes : list span) (t : text) : list (span * position) :=
  flat_map (fun n => match determine (c_span c) n t with Some p => [(n, p)] | None => [] end) nodes.
Definition find_best (c : comment) (nodes : list span) (t : text) : option span :=
  option_map fst (min_by (fun x => (rank (is_doc (c_text c)) (snd x), distance (c_span c) (fst x))) (candidates c nodes t)).
(** comment_attachment.rs 273-286 [find_nearest_node]. *)
Definition find_nearest (c : comment) (nodes : list span) : option span := min_by (fun n => (0, distance (c_span c) n)) nodes.

(** [str::lines] (an empty last piece is kept here; it is never code) and [trim] for ASCII blanks. *)
Fixpoint split (t : text) : list text :=
  match t with
  | [] => [[]]
  | c :: r => if is c nl then [] :: split r else match split r with l :: ls => (c :: l) :: ls | [] => [[c]] end
  end.
Definition strip_cr (l : text) : text := match rev l with c :: r => if is c cr then rev r else l | [] => l end.
Definition lines (t : text) : list text := map strip_cr (split t).
Definition blank (c : ascii) : bool := is c " "%char || ((9 <=? Ascii.nat_of_ascii c) && (Ascii.nat_of_ascii c <=? 13)).
Fixpoint trim_start (l : text) : text := match l with c :: r => if blank c then trim_start r else l | [] => [] end.
(** comment_attachment.rs 36-39, simple_comment_preserver.rs 19-22. *)
Definition is_code (l : text) : bool :=
  match trim_start l with
  | [] => false
  | c :: r => negb (is c slash && match r with d :: _ => is d slash | [] => false end)
  end.
Fixpoint first_code_line (ls : list text) : option nat :=
  match ls with [] => None | l :: r => if is_code l then Some 0 else option_map S (first_code_line r) end.
(** comment_attachment.rs 32-50. *)
Definition sizes (ls : list text) : nat := list_sum (map (fun l => length l + 1) ls).
Definition first_code_pos (t : text) : nat :=
  match first_code_line (lines t) with Some k => sizes (firstn k (lines t)) - 1 | None => 0 end.

Inductive side : Set := Leading | Trailing.
(** comment_attachment.rs 23-80 [attach_comments_to_ast]: what is put into the buckets, in order;
    [nodes] are the spans of the tree, in the order of their starts. *)
Definition attach_one (nodes : list span) (t : text) (c : comment) : list (side * span * comment) :=
  if s_start (c_span c) <? first_code_pos t then []
  else match find_best c nodes t with
       | Some n =>
         match determine (c_span c) n t with
         | Some Before => [(Leading, n, c)]
         | Some EndOfLine | Some After => [(Trailing, n, c)]
         | None => match find_nearest c nodes with Some m => [(Leading, m, c)] | None => [] end
         end
       | None => []
       end.
Definition attach (nodes : list span) (t : text) : list (side * span * comment) := flat_map (attach_one nodes t) (scan_comments t).

(** simple_comment_preserver.rs 7-43 [format_with_comments]: the comments put before everything else. *)
Definition head_comments (t : text) : list comment :=
  filter (fun c => line_ends (firstn (s_start (c_span c)) t) <? match first_code_line (lines t) with Some k => k | None => 0 end) (scan_comments t).
