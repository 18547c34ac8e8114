(** Command-line arguments.  Models crates/common/src/abi_codec.rs 4-16 and 87-261.
    Strings are lists of bytes, as the parser sees them. *)
From Coq Require Import ZArith Bool List.
From Verif Require Import M31.
Import ListNotations.
Open Scope Z_scope.

(** abi_codec.rs 5-16 [InputValue] ([Number] holds an i64). *)
Inductive input : Set :=
| INumber (n : Z) | IBool (b : bool) | IList (l : list input) | IStruct (l : list input) | IUnit.

(** abi_codec.rs 87-96 [m31_from_i64] ([%] truncates towards zero). *)
Definition m31_from_i64 (n : Z) : Z :=
  let m := Z.rem n P in
  mfrom (if m <? 0 then m + P else m).

(** [(b as char).is_whitespace()] for one byte: tab to carriage return, space, U+0085
    and U+00A0. *)
Definition is_ws (b : Z) : bool :=
  (9 <=? b) && (b <=? 13) || (b =? 32) || (b =? 133) || (b =? 160).
Definition is_digit (b : Z) : bool := (48 <=? b) && (b <=? 57).
Fixpoint skip_ws (s : list Z) : list Z :=
  match s with b :: r => if is_ws b then skip_ws r else s | [] => [] end.

Definition b_minus := 45. Definition b_comma := 44.
Definition b_lbrack := 91. Definition b_rbrack := 93.
Definition b_lpar := 40. Definition b_rpar := 41.
Definition b_lbrace := 123. Definition b_rbrace := 125.
Definition b_t := 116. Definition b_f := 102.
Definition w_true : list Z := [116; 114; 117; 101].
Definition w_false : list Z := [102; 97; 108; 115; 101].

(** Results: a value and the remaining bytes, a parse error, or a recursion deeper than
    the fuel (the Rust code recurses on the stack, which is not modelled). *)
Inductive pres (A : Type) : Type := POk (a : A) (rest : list Z) | PErr | PFuel.
Arguments POk {A} a rest. Arguments PErr {A}. Arguments PFuel {A}.

Fixpoint starts (w s : list Z) : option (list Z) :=
  match w, s with
  | [], _ => Some s
  | x :: w', y :: s' => if x =? y then starts w' s' else None
  | _ :: _, [] => None
  end.
(** abi_codec.rs 202-225 [parse_bool]. *)
Definition parse_bool (s : list Z) : pres input :=
  match starts w_true s with
  | Some r => POk (IBool true) r
  | None => match starts w_false s with Some r => POk (IBool false) r | None => PErr end
  end.

(** The digits read: their value, how many, and the rest. *)
Fixpoint digits (s : list Z) (acc : Z) (n : nat) : Z * nat * list Z :=
  match s with
  | b :: r => if is_digit b then digits r (10 * acc + (b - 48)) (S n) else (acc, n, s)
  | [] => (acc, n, [])
  end.
Definition I64_MIN : Z := - 9223372036854775808.
Definition I64_MAX : Z := 9223372036854775807.
(** abi_codec.rs 226-247 [parse_number]; [str::parse::<i64>] fails out of range. *)
Definition parse_number (s : list Z) : pres input :=
  let '(neg, s1) := match s with b :: r => if b =? b_minus then (true, r) else (false, s) | [] => (false, []) end in
  let '(v, n, r) := digits s1 0 O in
  match n with
  | O => PErr
  | S _ =>
    let x := if (neg : bool) then - v else v in
    if (I64_MIN <=? x) && (x <=? I64_MAX) then POk (INumber x) r else PErr
  end.

(** abi_codec.rs 136-201: [parse_value] and [parse_delimited_list]. *)
Fixpoint parse_value (fuel : nat) (s : list Z) {struct fuel} : pres input :=
  match fuel with
  | O => PFuel
  | S k =>
    match skip_ws s with
    | [] => PErr
    | (b :: r) as s1 =>
      if b =? b_lbrack then match parse_list k b_rbrack r with POk l q => POk (IList l) q | PErr => PErr | PFuel => PFuel end
      else if b =? b_lpar then match parse_list k b_rpar r with POk l q => POk (IList l) q | PErr => PErr | PFuel => PFuel end
      else if b =? b_lbrace then match parse_list k b_rbrace r with POk l q => POk (IStruct l) q | PErr => PErr | PFuel => PFuel end
      else if (b =? b_t) || (b =? b_f) then parse_bool s1
      else if (b =? b_minus) || is_digit b then parse_number s1
      else PErr
    end
  end
(* after the opening delimiter *)
with parse_list (fuel : nat) (close : Z) (s : list Z) {struct fuel} : pres (list input) :=
  match fuel with
  | O => PFuel
  | S k =>
    match skip_ws s with
    | b :: r => if b =? close then POk [] r else parse_items k close (b :: r)
    | [] => parse_items k close []
    end
  end
(* the loop, with at least one more item *)
with parse_items (fuel : nat) (close : Z) (s : list Z) {struct fuel} : pres (list input) :=
  match fuel with
  | O => PFuel
  | S k =>
    match parse_value k s with
    | POk v r =>
      match skip_ws r with
      | b :: q =>
        if b =? b_comma then
          match parse_items k close (skip_ws q) with POk l e => POk (v :: l) e | PErr => PErr | PFuel => PFuel end
        else if b =? close then POk [v] q
        else PErr
      | [] => PErr
      end
    | PErr => PErr
    | PFuel => PFuel
    end
  end.

(** abi_codec.rs 249-260: one value, then only white space. *)
Definition parse_with (fuel : nat) (s : list Z) : pres input :=
  match parse_value fuel s with
  | POk v r => match skip_ws r with [] => POk v [] | _ => PErr end
  | PErr => PErr
  | PFuel => PFuel
  end.
(** Three calls per byte are enough (proved in CliFacts.v). *)
Definition parse_cli_arg (s : list Z) : pres input := parse_with (3 * length s + 3)%nat s.
