(** Checks on a MIR function, decided by running them.

    They state what phi elimination, and the lifting of a pass from functions to modules,
    need to know about a function: recorded types are the types of the instructions, phis
    agree with the control flow, and copies can be ordered.  Nothing in the compiler runs
    these checks (crates/compiler/mir/src/pipeline.rs runs the passes unconditionally); the
    theorems that use them have them as hypotheses. *)
From Coq Require Import ZArith Bool String List.
From Verif Require Import M31 Isa Mir MirSem MirSsaFacts MirPhi.
Import ListNotations.
Open Scope nat_scope.

(** Parameter and result types of the functions of a module. *)
Definition msig : Type := option (list ty) * option (list ty).
Definition sig (f : func) : msig := (omap (f_types f) (f_params f), omap (f_types f) (f_rets f)).
Definition sigs_of (ms : list (string * func)) : list msig := map (fun m => sig (snd m)) ms.

Fixpoint tysb (a b : list ty) : bool :=
  match a, b with
  | [], [] => true
  | x :: a', y :: b' => ty_eqb x y && tysb a' b'
  | _, _ => false
  end.
Definition has_ty (f : func) (d : nat) (t : ty) : bool :=
  match f_types f d with Some u => ty_eqb u t | None => false end.
Fixpoint have_tys (f : func) (ds : list nat) (ts : list ty) : bool :=
  match ds, ts with
  | [], [] => true
  | d :: ds', t :: ts' => has_ty f d t && have_tys f ds' ts'
  | _, _ => false
  end.
(** What a phi takes has the type of the phi. *)
Definition src_ok (f : func) (t : ty) (v : value) : bool :=
  match v with
  | Op i => has_ty f i t
  | Lit l => match lit_as t l with Some _ => true | None => false end
  | VErr => false
  end.
(** A call passes the parameter types of the callee. *)
Definition call_fits (sg : list msig) (i : minstr) : bool :=
  match i with
  | ICall _ k _ ps => match nth_error sg k with Some (Some qs, _) => tysb ps qs | _ => false end
  | _ => true
  end.
Definition calls_fit (sg : list msig) (f : func) : bool :=
  forallb (fun b => forallb (call_fits sg) (b_instrs b)) (f_blocks f).
(** The types recorded for the results of an instruction are theirs. *)
Definition result_ok (sg : list msig) (f : func) (i : minstr) : bool :=
  match i with
  | IAssign d _ t | ICast d _ _ t => has_ty f d t
  | IPhi d t ss => has_ty f d t && forallb (fun s => src_ok f t (snd s)) ss
  | IUnary op d _ => has_ty f d (match op with Not => TBool | Neg => TFelt end)
  | IBinary op d _ _ => has_ty f d (result_type op)
  | ICall ds k _ _ => match nth_error sg k with Some (_, Some rs) => have_tys f ds rs | _ => false end
  | IAssertEq _ _ | INop => true
  | _ => false
  end.
Definition types_ok (sg : list msig) (f : func) : bool :=
  forallb (fun b => forallb (result_ok sg f) (b_instrs b)) (f_blocks f).

(** Blocks with their numbers, and the phis of the function with the number of their block. *)
Definition numbered (f : func) : list (nat * block) := combine (seq 0 (length (f_blocks f))) (f_blocks f).
Definition targets_of (f : func) (p : nat) : list nat :=
  match nth_error (f_blocks f) p with Some b => targets (b_term b) | None => [] end.
Definition phi_preds_ok (f : func) : bool :=
  forallb (fun nb => forallb (fun i =>
    match i with
    | IPhi _ _ ss => nodupb (map fst ss) && forallb (fun s => mem_nat (fst nb) (targets_of f (fst s))) ss
    | _ => true
    end) (b_instrs (snd nb))) (numbered f).

(** How many copies of the list have to be performed after the one of [d]. *)
Fixpoint depth (cs : list copy) (fuel d : nat) : nat :=
  match fuel with
  | O => O
  | S k => match find (fun c => Nat.eqb (c_dest c) d) cs with
           | Some c => match c_src c with Op s => S (depth cs k s) | _ => 0 end
           | None => O
           end
  end.
Definition rank (cs : list copy) (d : nat) : nat := length cs - depth cs (length cs) d.
Definition order_ok (cs : list copy) : bool :=
  forallb (fun c => match c_src c with
    | Op s => (negb (mem_nat s (map c_dest cs)) || Nat.ltb (rank cs (c_dest c)) (rank cs s)) &&
              forallb (fun c' => negb (Nat.eqb s (c_dest c')) || match c_src c' with Op _ => true | _ => false end) cs
    | _ => true
    end) cs.
Fixpoint in_order_ok (done : list nat) (cs : list copy) : bool :=
  match cs with
  | [] => true
  | c :: r => match c_src c with Op s => negb (mem_nat s done) | _ => true end && in_order_ok (c_dest c :: done) r
  end.
Definition copies_ok (cs : list copy) : bool :=
  order_ok cs || (in_order_ok [] cs && existsb (fun c => match c_src c with Op s => Nat.eqb s (c_dest c) | _ => false end) cs).
(** The blocks that phis take values from. *)
Definition phi_froms (f : func) : list nat :=
  flat_map (fun b => flat_map (fun i => match i with IPhi _ _ ss => map fst ss | _ => [] end) (b_instrs b)) (f_blocks f).
Definition phi_order_ok (f : func) : bool := forallb (fun p => copies_ok (phi_copies f p)) (phi_froms f).

(** Blocks that can be reached without entering [x], in at most [n] rounds. *)
Definition grow (f : func) (x : nat) (R : list nat) : list nat :=
  nodup Nat.eq_dec (R ++ filter (fun t => negb (Nat.eqb t x)) (flat_map (targets_of f) R)).
Fixpoint avoiding (f : func) (x n : nat) (R : list nat) : list nat :=
  match n with O => R | S k => avoiding f x k (grow f x R) end.
Definition reaches (f : func) (x p : nat) : bool :=
  mem_nat p (avoiding f x (length (f_blocks f)) (if Nat.eqb (f_entry f) x then [] else [f_entry f])).
(** No path leads to [p]. *)
Definition cut_off (f : func) (p : nat) : bool :=
  let R := avoiding f (length (f_blocks f)) (length (f_blocks f)) [f_entry f] in
  mem_nat (f_entry f) R && forallb (fun b => forallb (fun t => mem_nat t R) (targets_of f b)) R && negb (mem_nat p R).
Definition forward_ok (f : func) : bool :=
  forallb (fun nb => forallb (fun i =>
    match i with
    | IPhi _ _ ss => forallb (fun s => Nat.leb (length (targets_of f (fst s))) 1 ||
                                       reaches f (fst nb) (fst s) || cut_off f (fst s)) ss
    | _ => true
    end) (b_instrs (snd nb))) (numbered f).

(** Phis stand first. *)
Definition phis_first_ok (f : func) : bool :=
  forallb (fun b => forallb (fun i => negb (is_phi i)) (snd (span_phi (b_instrs b)))) (f_blocks f).

(** Values available on entry to each block, by iteration; [ssa_cert] checks the outcome. *)
Definition meet (f : func) (av : list (list nat)) (b : nat) : list nat :=
  let all := f_params f ++ flat_map (fun b => flat_map dests (b_instrs b)) (f_blocks f) in
  if Nat.eqb b (f_entry f) then f_params f else
  filter (fun v => forallb (fun nb => negb (mem_nat b (targets (b_term (snd nb)))) ||
                                      mem_nat v (nth (fst nb) av []) || mem_nat v (blk_dests (snd nb))) (numbered f)) all.
Fixpoint settle (f : func) (n : nat) (av : list (list nat)) : list (list nat) :=
  match n with
  | O => av
  | S k => settle f k (map (meet f av) (seq 0 (length (f_blocks f))))
  end.
Definition available (f : func) : list (list nat) :=
  settle f (length (f_blocks f))
    (map (fun b => if Nat.eqb b (f_entry f) then f_params f
                   else f_params f ++ flat_map (fun b => flat_map dests (b_instrs b)) (f_blocks f))
         (seq 0 (length (f_blocks f)))).
Definition ssa_ok (f : func) : bool := let av := available f in ssa_cert (fun b => nth b av []) f.

(** Everything phi elimination needs. *)
Definition phi_ready (sg : list msig) (f : func) : bool :=
  ssa_ok f && phis_first_ok f && types_ok sg f && phi_preds_ok f && phi_order_ok f && forward_ok f.

(** One iteration order of the hash maps phi elimination uses. *)
Definition some_orders (f : func) : orders :=
  let f1 := split_all f in
  Orders (nodup Nat.eq_dec (phi_froms f1))
         (fun p => filter (fun d => match deps (phi_copies f1 p) d with [] => false | _ => true end)
                          (nodup Nat.eq_dec (map c_dest (phi_copies f1 p))))
         (fun p => nodup Nat.eq_dec (map c_dest (phi_copies f1 p))).
