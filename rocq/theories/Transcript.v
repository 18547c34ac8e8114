(** The public data of a proof and what prover and verifier mix into their channels:
    crates/prover/src/{public_data,prover,verifier}.rs. *)
From Coq Require Import ZArith List.
Import ListNotations.
Open Scope Z_scope.

(** public_data.rs 58-62: address, value (four numbers) and clock. *)
Record entry : Type := Entry { e_addr : Z; e_v0 : Z; e_v1 : Z; e_v2 : Z; e_v3 : Z; e_clock : Z }.
Record entries : Type := Entries { program : list (option entry); input : list (option entry); output : list (option entry) }.
(** public_data.rs 84-101 [extract_range_with_capacity]; a range is its start and its
    length.  Addresses are below 2^28, so that [M31::from] keeps them. *)
Definition memory : Type := Z -> option (Z * Z * Z * Z * Z).
Definition extract_range (m : memory) (start : Z) (len : nat) : list (option entry) :=
  map (fun i => let a := start + Z.of_nat i in
       match m a with Some (v0, v1, v2, v3, c) => Some (Entry a v0 v1 v2 v3 c) | None => None end) (seq 0 len).
(** public_data.rs 65-82 [PublicEntries::new]. *)
Definition new_entries (initial final : memory) (p i o : Z * nat) : entries :=
  Entries (extract_range initial (fst p) (snd p)) (extract_range initial (fst i) (snd i)) (extract_range final (fst o) (snd o)).
(** public_data.rs 103-109 [get_output_values]. *)
Definition get_output_values (e : entries) : list (option (Z * Z * Z * Z)) :=
  map (option_map (fun x => (e_v0 x, e_v1 x, e_v2 x, e_v3 x))) (output e).

(** public_data.rs 214-230 [PublicData]. *)
Record public_data : Type := PublicData {
  pc0 : Z; fp0 : Z; pc1 : Z; fp1 : Z; clock : Z; root0 : Z; root1 : Z; public_memory : entries }.

(** Rust's [iter().flatten()]: missing entries are skipped. *)
Fixpoint present {A} (l : list (option A)) : list A :=
  match l with [] => [] | Some x :: r => x :: present r | None :: r => present r end.
(** public_data.rs 133-145. *)
Definition numbers (x : entry) : list Z := [e_addr x; e_v0 x; e_v1 x; e_v2 x; e_v3 x; e_clock x].
Definition as_u32 (n : nat) : Z := Z.of_nat n mod 2 ^ 32.
(** public_data.rs 132-186, 401-420 [mix_into]: the numbers of each call of [mix_u32s]. *)
Definition mix_entries (e : entries) : list (list Z) :=
  [ [as_u32 (length (program e)); as_u32 (length (input e)); as_u32 (length (output e))];
    flat_map numbers (present (program e)); flat_map numbers (present (input e)); flat_map numbers (present (output e)) ].
Definition mix_public (p : public_data) : list (list Z) :=
  [pc0 p; fp0 p; pc1 p; fp1 p; clock p; root0 p; root1 p] :: mix_entries (public_memory p).

(** ** Prover and verifier *)
Section Channel.
  (** The channel (stwo) and everything that does not depend on the public data: [Ch] its states,
      [Rel] the drawn relation elements, [K] the field of the sums. *)
  Variables (Ch Root Claim IClaim Rel K Pow Stark : Type).
  Variables (mix_u32s : list Z -> Ch -> Ch) (mix_root : Root -> Ch -> Ch) (mix_claim : Claim -> Ch -> Ch) (mix_iclaim : IClaim -> Ch -> Ch) (mix_pow : Pow -> Ch -> Ch).
  Variables (fresh : Ch) (enough : Ch -> bool) (draw : Ch -> Rel * Ch).
  Variables (zero : K) (add mul : K -> K -> K) (neg inv : K -> K) (is_zero : K -> bool) (one minus_one : K).
  Variables (registers merkle mem : Rel -> list Z -> K) (components_sum : IClaim -> K).
  Variable verify_stark : Ch -> Claim -> IClaim -> Rel -> Stark -> bool.
  Variables (P HEIGHT : Z).

  Definition mix_all (ls : list (list Z)) (c : Ch) : Ch := fold_left (fun c l => mix_u32s l c) ls c.

  (** public_data.rs 318-380: the terms of entries; [m] is the multiplicity. *)
  Definition entry_terms (r : Rel) (m : K) (root : Z) (x : entry) : list K :=
    [ mul m (mem r [e_addr x; e_clock x; e_v0 x; e_v1 x; e_v2 x; e_v3 x]);
      neg (merkle r [4 * e_addr x mod P; HEIGHT; e_v0 x; root]);
      neg (merkle r [(4 * e_addr x + 1) mod P; HEIGHT; e_v1 x; root]);
      neg (merkle r [(4 * e_addr x + 2) mod P; HEIGHT; e_v2 x; root]);
      neg (merkle r [(4 * e_addr x + 3) mod P; HEIGHT; e_v3 x; root]) ].
  (** public_data.rs 287-396 [initial_logup_sum]. *)
  Definition initial_logup_sum (p : public_data) (r : Rel) : K :=
    let terms :=
      [ registers r [pc0 p; fp0 p; 1]; neg (registers r [pc1 p; fp1 p; (clock p + 1) mod P]);
        merkle r [0; 0; root0 p; root0 p]; merkle r [0; 0; root1 p; root1 p] ]
      ++ flat_map (entry_terms r one (root0 p)) (present (program (public_memory p)))
      ++ flat_map (entry_terms r one (root0 p)) (present (input (public_memory p)))
      ++ flat_map (entry_terms r minus_one (root1 p)) (present (output (public_memory p))) in
    fold_left add (map inv terms) zero.

  Record proof : Type := Proof {
    p_claim : Claim; p_iclaim : IClaim; p_public : public_data; p_roots : Root * Root * Root; p_stark : Stark; p_pow : Pow }.
  (** verifier.rs 17-95 [verify_cairo_m]; [fresh] is the channel with the configuration mixed in. *)
  Definition verify (x : proof) : bool :=
    let '(k0, k1, k2) := p_roots x in
    let c1 := mix_root k0 (mix_all (mix_public (p_public x)) fresh) in
    let c2 := mix_root k1 (mix_claim (p_claim x) c1) in
    let c3 := mix_pow (p_pow x) c2 in
    if enough c3 then
      let (r, c4) := draw c3 in
      if is_zero (add (initial_logup_sum (p_public x) r) (components_sum (p_iclaim x)))
      then verify_stark (mix_root k2 (mix_iclaim (p_iclaim x) c4)) (p_claim x) (p_iclaim x) r (p_stark x)
      else false
    else false.

  (** prover.rs 23-147 [prove_cairo_m]: [k0], [claim] and [k1] come from the run; the proof of work,
      the interaction claim and trace, and the STARK proof are made from what the channel gives. *)
  Variables (grind : Ch -> Pow) (write_interaction : Rel -> IClaim * Root) (prove_stark : Ch -> Claim -> IClaim -> Rel -> Stark).
  Definition prove (p : public_data) (k0 : Root) (claim : Claim) (k1 : Root) : proof :=
    let c1 := mix_root k0 (mix_all (mix_public p) fresh) in
    let c2 := mix_root k1 (mix_claim claim c1) in
    let pow := grind c2 in
    let (r, c4) := draw (mix_pow pow c2) in
    let (ic, k2) := write_interaction r in
    let c5 := mix_root k2 (mix_iclaim ic c4) in
    Proof claim ic p (k0, k1, k2) (prove_stark c5 claim ic r) pow.
End Channel.
