(** JSON form of instructions: an array of hexadecimal strings.
    Models crates/common/src/instruction.rs 608-655.  Strings are lists of character
    codes; the JSON syntax around them (serde) is not modelled. *)
From Coq Require Import ZArith Bool List.
From Verif Require Import M31 Instr.
Import ListNotations.
Open Scope Z_scope.

(** [format!("{:x}", n)] for a u32 (at most 8 digits). *)
Definition hex_digit (d : Z) : Z := if d <? 10 then 48 + d else 87 + d.
Fixpoint hexd (fuel : nat) (n : Z) : list Z :=
  match fuel with
  | O => [hex_digit (n mod 16)]
  | S k => if n <? 16 then [hex_digit n] else hexd k (n / 16) ++ [hex_digit (n mod 16)]
  end.
(** instruction.rs 619-621: ["0x{:x}"]. *)
Definition hex_str (n : Z) : list Z := 48 :: 120 :: hexd 7 n.
(** instruction.rs 609-624 [Serialize]. *)
Definition to_json (i : instr) : list (list Z) := map hex_str (encode i).

(** [str::trim_start_matches("0x")]: removes every leading copy. *)
Fixpoint trim0x (l : list Z) : list Z :=
  match l with
  | 48 :: 120 :: r => trim0x r
  | _ => l
  end.

(** [u32::from_str_radix(_, 16)]: an optional [+], at least one digit, overflow is an error. *)
Definition digit_val (c : Z) : option Z :=
  if (48 <=? c) && (c <=? 57) then Some (c - 48)
  else if (97 <=? c) && (c <=? 102) then Some (c - 87)
  else if (65 <=? c) && (c <=? 70) then Some (c - 55)
  else None.
Definition push_digit (acc : option Z) (c : Z) : option Z :=
  match acc, digit_val c with
  | Some a, Some d => let n := a * 16 + d in if n <? 4294967296 then Some n else None
  | _, _ => None
  end.
Definition from_radix16 (l : list Z) : option Z :=
  match l with
  | [] => None
  | [43] => None
  | [45] => None
  | 43 :: r => fold_left push_digit r (Some 0)
  | _ => fold_left push_digit l (Some 0)
  end.

(** instruction.rs 627-655 [Deserialize]. *)
Inductive jres : Set := JOk (i : instr) | JEmpty | JTooLarge | JBadHex | JInstr (e : ierr).
Fixpoint hexes (l : list (list Z)) : option (list Z) :=
  match l with
  | [] => Some []
  | s :: r =>
    match from_radix16 (trim0x s) with
    | None => None
    | Some n => match hexes r with Some t => Some (mfrom n :: t) | None => None end
    end
  end.
Definition of_json (l : list (list Z)) : jres :=
  match l with
  | [] => JEmpty
  | _ =>
    if Z.of_nat (length l) <=? 6 then
      match hexes l with
      | None => JBadHex
      | Some vs => match decode vs with DOk i => JOk i | DErr e => JInstr e end
      end
    else JTooLarge
  end.
