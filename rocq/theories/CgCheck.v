(** When does generated code keep every value until its last use?

    A computable condition on a module and its generated code.  Nothing here models code of
    the compiler: the code generator moves values to other slots while it emits code and
    does not check that the slots are free (see C42).  [checked] demands just that, at every
    instruction, with a given set of values that are still needed.  The sets are not
    trusted: [checked] also verifies that they contain what is used later. *)
From Coq Require Import ZArith Bool String List.
From Verif Require Import M31 Instr Isa Mir MirSem Cg CgLink.
Import ListNotations.
Open Scope Z_scope.

(** The cells of a value, in order. *)
Fixpoint vcells (v : val) : list Z :=
  match v with
  | VFelt z | VPtr z => [z]
  | VU32 z => [z mod B16; z / B16]
  | VBool b => [bz b]
  | VUnit => []
  | VTup vs => flat_map vcells vs
  | VStr fs => flat_map (fun f => vcells (snd f)) fs
  end.
(** Scalars only: what the theorems cover. *)
Definition scalar (t : ty) : bool := match t with TFelt | TBool | TU32 => true | _ => false end.
Fixpoint typed (ts : list ty) (vs : list val) : Prop :=
  match ts, vs with
  | [], [] => True
  | t :: ts', v :: vs' => scalar t = true /\ shape t v = true /\ typed ts' vs'
  | _, _ => False
  end.

Definition memb (v : nat) (l : list nat) : bool := existsb (Nat.eqb v) l.
Fixpoint tys_eqb (a b : list ty) : bool :=
  match a, b with [], [] => true | x :: a', y :: b' => ty_eqb x y && tys_eqb a' b' | _, _ => false end.
Fixpoint nodupb (l : list nat) : bool := match l with [] => true | x :: r => negb (memb x r) && nodupb r end.

(** Literals must be in range for their position; immediates of felt operations are read
    as signed numbers, so they must be below 2^31 - 1. *)
Definition lit_in (t : ty) (v : value) : bool :=
  match v with
  | Lit (LInt n) => (0 <=? n) && (n <? match t with TU32 => B32 | _ => P end)
  | _ => true
  end.
Definition opnd_type (op : binop) : ty := match op_type op with Some t => t | None => TFelt end.
(** The type of a result. *)
Definition res_type (op : binop) : ty :=
  match op with
  | Add | Sub | Mul | Div => TFelt
  | U32Add | U32Sub | U32Mul | U32Div | U32Rem | U32BitwiseAnd | U32BitwiseOr | U32BitwiseXor => TU32
  | _ => TBool
  end.

Section Check.
Variable ms : funcs.
(** The number of slots a frame may use above and below the frame pointer. *)
Variables FS NS : Z.
Variable f : func.

(** A value's slots lie in the frame. *)
Definition below (L : layout) (v : nat) : bool :=
  match slots L v with Some (o, n) => (- NS <=? o) && (0 <=? n) && (o + n <=? frame L) | None => false end.
Definition same_slot (L L' : layout) (v : nat) : bool :=
  match slots L v, slots L' v with
  | Some (o, n), Some (o', n') => (o =? o') && (n =? n')
  | _, _ => false
  end.
Definition clear_of (L : layout) (o n : Z) (d : nat) : bool :=
  match slots L d with Some (o', n') => (o' + n' <=? o) || (o + n <=? o') | None => false end.
(** A value needed later stays where it is, below [bound], and no result is put there. *)
Definition survives (L L' : layout) (bound : Z) (ds : list nat) (v : nat) : bool :=
  memb v ds ||
  match slots L v with
  | Some (o, n) => same_slot L L' v && (o + n <=? bound) && forallb (clear_of L' o n) ds
  | None => false
  end.
(** A result of type [t]: size, and slots that the function may write:
    its frame or its return slots, not the two saved registers. *)
Definition dest_ok (L' : layout) (d : nat) (t : ty) : bool :=
  scalar t &&
  match slots L' d with
  | Some (o, n) => (n =? msize t) && (o + n <=? FS) &&
                   ((0 <=? o) || ((- (nret L' + 2) <=? o) && (o + n <=? -2)))
  | None => false
  end.
Definition elsewhereb (L' : layout) (d : nat) (v : value) : bool :=
  match v with
  | Op i => match slots L' i, slots L' d with Some (o, _), Some (o', _) => negb (o =? o') | _, _ => false end
  | _ => true
  end.

(** One instruction; [L] and [L'] are the layouts around it, [mw] the high-water mark,
    [after] what is needed afterwards. *)
Fixpoint args_ok (args : list value) (ps : list ty) : bool :=
  match args, ps with
  | [], [] => true
  | a :: args', p :: ps' =>
    scalar p && lit_in p a && args_ok args' ps'
  | _, _ => false
  end.
Fixpoint dests_at (L' : layout) (o : Z) (ds : list nat) (rs : list ty) : bool :=
  match ds, rs with
  | [], [] => true
  | d :: ds', r :: rs' =>
    match slots L' d with Some (o', n) => (o' =? o) && (n =? msize r) | None => false end
    && dest_ok L' d r && dests_at L' (o + msize r) ds' rs'
  | _, _ => false
  end.
Definition call_base (L : layout) (mw : Z) (args : list value) (ps : list ty) : Z :=
  match in_place L mw args ps with Some o => o | None => frame L end.
Definition call_bound (L : layout) (mw : Z) (args : list value) (ps : list ty) : Z :=
  match in_place L mw args ps with Some o => o + sizes ps | None => frame L end.
Definition plain_ok (L L' : layout) (i : minstr) (after : list nat) : bool :=
  forallb (below L) (uses i ++ dests i ++ after) && forallb (same_slot L L') (uses i)
  && forallb (survives L L' (frame L) (dests i)) after.
Definition instr_ok (i : minstr) (L L' : layout) (mw : Z) (after : list nat) : bool :=
  match i with
  | IAssign d v t => plain_ok L L' i after && dest_ok L' d t && lit_in t v
  | IUnary op d v => plain_ok L L' i after && dest_ok L' d (match op with Not => TBool | Neg => TFelt end) && lit_in TFelt v
  | IBinary op d l r =>
    plain_ok L L' i after && dest_ok L' d (res_type op) && lit_in (opnd_type op) l && lit_in (opnd_type op) r
    && match op with And | Or => elsewhereb L' d l && elsewhereb L' d r | _ => true end
  | ICast d v st u => plain_ok L L' i after && dest_ok L' d TFelt && lit_in TU32 v
  | INop => plain_ok L L' i after
  | IAssertEq l r => plain_ok L L' i after && lit_in TFelt l && lit_in TFelt r
  | ICall ds c args ps =>
    match nth_error ms c with
    | Some (_, g) =>
      match types_of g (f_params g), types_of g (f_rets g) with
      | Some qs, Some rs =>
        let o := call_base L mw args ps in
        forallb (below L) (uses i ++ after) && nodupb ds
        && forallb (survives L L' (call_bound L mw args ps) ds) after
        && tys_eqb qs ps && args_ok args ps && dests_at L' (o + sizes ps) ds rs
        && (- NS <=? o) && (0 <=? o + sizes ps) && (o + sizes ps + sizes rs + 2 <=? FS)
      | _, _ => false
      end
    | None => false
    end
  | _ => false
  end.

(** What is needed before instructions, given what is needed after them. *)
Definition needed (is : list minstr) (out : list nat) : list nat :=
  fold_right (fun i a => uses i ++ filter (fun v => negb (memb v (dests i))) a) out is.
Fixpoint instrs_ok (t : term) (is : list minstr) (out : list nat) (st : est) : bool :=
  match is with
  | [] => true
  | i :: r => match gen_instr ms f t i r st with
              | COk (_, _, st') => instr_ok i (lay st) (lay st') (maxw st) (needed r out) && instrs_ok t r out st'
              | _ => false
              end
  end.

(** Returned values: types, and no return slot is filled before a value in it is read. *)
Fixpoint rets_ok (L : layout) (done c : Z) (vs : list value) (rs : list ty) : bool :=
  match vs, rs with
  | [], [] => true
  | v :: vs', r :: rs' =>
    scalar r && lit_in r v &&
    match v with
    | Op i => match slots L i with
              | Some (o, n) => (n =? msize r) && ((o =? c) || (o + n <=? done) || (c + n <=? o))
              | None => false
              end
    | _ => true
    end && rets_ok L done (c + msize r) vs' rs'
  | _, _ => false
  end.
Definition term_ok (t : term) (L : layout) : bool :=
  match t with
  | TJump _ | TIf _ _ _ => true
  | TCmp op l r _ _ => lit_in (opnd_type op) l && lit_in (opnd_type op) r
  | TReturn vs => match types_of f (f_rets f) with
                  | Some rs => rets_ok L (- (nret L + 2)) (- (nret L + 2)) vs rs && (nret L =? sizes rs)
                  | None => false
                  end
  | TUnreachable => true
  end.

(** The layouts at the beginning of each block. *)
Fixpoint entry_lays (fn : string) (k : nat) (bs : list block) (st : est) : list layout :=
  match bs with
  | [] => []
  | b :: r => lay st :: match gen_block ms fn f k (match r with [] => true | _ => false end) b st with
                        | COk (_, _, st') => entry_lays fn (S k) r st'
                        | _ => []
                        end
  end.
Definition live_at (live : list (list nat)) (b : nat) : list nat := nth b live [].
Definition block_ok (ins : list layout) (live : list (list nat)) (k : nat) (b : block) (st : est) : bool :=
  let out := (term_uses (b_term b) ++ flat_map (live_at live) (targets (b_term b)))%list in
  match gen_instrs ms f (b_term b) (b_instrs b) st with
  | COk (_, _, st') =>
    forallb (fun v => memb v (live_at live k)) (needed (b_instrs b) out)
    && instrs_ok (b_term b) (b_instrs b) out st
    && forallb (below (lay st')) out && term_ok (b_term b) (lay st') && (frame (lay st') + 3 <=? FS)
    && forallb (fun t => match nth_error ins t with
                         | Some L => forallb (same_slot (lay st') L) (live_at live t)
                         | None => false
                         end) (targets (b_term b))
  | _ => false
  end.
Fixpoint blocks_ok (fn : string) (ins : list layout) (live : list (list nat)) (k : nat) (bs : list block) (st : est) : bool :=
  match bs with
  | [] => true
  | b :: r => block_ok ins live k b st &&
              match gen_block ms fn f k (match r with [] => true | _ => false end) b st with
              | COk (_, _, st') => blocks_ok fn ins live (S k) r st'
              | _ => false
              end
  end.
Definition func_ok (fn : string) (live : list (list nat)) (st : est) : bool :=
  match types_of f (f_params f), types_of f (f_rets f) with
  | Some ps, Some rs =>
    Nat.eqb (f_entry f) 0 && nodupb (f_params f) && forallb scalar ps && forallb scalar rs
    && (nret (lay st) =? sizes rs) && (sizes ps + sizes rs + 2 <=? NS)
    && blocks_ok fn (entry_lays fn 0 (f_blocks f) st) live 0 (f_blocks f) st
  | _, _ => false
  end.
End Check.

(** A function reaches below its frame for its arguments, its results and two registers. *)
Definition depth (f : func) : Z :=
  match types_of f (f_params f), types_of f (f_rets f) with
  | Some ps, Some rs => sizes ps + sizes rs + 2
  | _, _ => 0
  end.

(** All functions, with the temporaries that rewriting adds to each frame. *)
Fixpoint funcs_ok (ms : funcs) (FS : Z) (c : N) (bs : list (list Z * string)) (h : bool)
    (fs : funcs) (Ls : list layout) (lives : list (list (list nat))) : bool :=
  match fs, Ls, lives with
  | [], [], [] => true
  | (fn, f) :: fs', L :: Ls', live :: lives' =>
    func_ok ms FS (depth f) f fn live (est0 L c bs h) && (depth f <=? FS) &&
    match gen_func ms fn f (est0 L c bs h) with
    | COk (_, is, s) =>
      (snd (dedup (frame (lay s)) (fst (split 0 is))) <=? FS) &&
      funcs_ok ms FS ((gcnt s + lbl s) mod 18446744073709551616) (blobs s) (heap s) fs' Ls' lives'
    | _ => false
    end
  | _, _, _ => false
  end.
(** The words each function occupies and its depth; the depth of the function at word [x]. *)
Fixpoint spans (ms : funcs) (c : N) (bs : list (list Z * string)) (h : bool) (fs : funcs) (Ls : list layout) : list (Z * Z) :=
  match fs, Ls with
  | (fn, f) :: fs', L :: Ls' =>
    match gen_func ms fn f (est0 L c bs h) with
    | COk (_, is, s) =>
      (words (map canon_l (concat (fst (dedup (frame (lay s)) (fst (split 0 is)))))), depth f)
      :: spans ms ((gcnt s + lbl s) mod 18446744073709551616) (blobs s) (heap s) fs' Ls'
    | _ => []
    end
  | _, _ => []
  end.
Fixpoint span_depth (l : list (Z * Z)) (x : Z) : Z :=
  match l with
  | [] => 0
  | (w, d) :: r => if x <? w then d else span_depth r (x - w)
  end.
(** The operands of every instruction are field elements and, as signed numbers, offsets
    between [-D] and [FS]; there are no accesses through pointers. *)
Definition near (D FS o : Z) : bool := (0 <=? o) && (o <? P) && ((o + 1 <? FS) || (P - D <=? o)).
Definition frame_operands (i : instr) : option (list Z) :=
  match i with
  | StoreAddFpFp a b d | StoreSubFpFp a b d | StoreMulFpFp a b d | StoreDivFpFp a b d
  | U32StoreAddFpFp a b d | U32StoreSubFpFp a b d | U32StoreMulFpFp a b d
  | U32StoreEqFpFp a b d | U32StoreLtFpFp a b d | U32StoreAndFpFp a b d | U32StoreOrFpFp a b d | U32StoreXorFpFp a b d => Some [a; b; d]
  | StoreAddFpImm a _ d | StoreMulFpImm a _ d | StoreLeFpImm a _ d => Some [a; d]
  | U32StoreAddFpImm a _ _ d | U32StoreMulFpImm a _ _ d | U32StoreEqFpImm a _ _ d | U32StoreLtFpImm a _ _ d
  | U32StoreAndFpImm a _ _ d | U32StoreOrFpImm a _ _ d | U32StoreXorFpImm a _ _ d => Some [a; d]
  | U32StoreDivRemFpFp a b d r => Some [a; b; d; r]
  | U32StoreDivRemFpImm a _ _ d r => Some [a; d; r]
  | AssertEqFpImm a _ | JnzFpImm a _ => Some [a]
  | StoreImm _ d | U32StoreImm _ _ d | CallAbsImm d _ => Some [d]
  | Ret | JmpAbsImm _ | JmpRelImm _ => Some []
  | _ => None
  end.
Definition operands_ok (D FS : Z) (i : instr) : bool :=
  match frame_operands i with Some os => forallb (near D FS) os | None => false end
  && forallb (fun z => (0 <=? z) && (z <? P)) (operands i).
Fixpoint code_fits (FS : Z) (l : list (Z * Z)) (x : Z) (is : list instr) : bool :=
  match is with
  | [] => true
  | i :: r => (2 <=? span_depth l x) && operands_ok (span_depth l x) FS i && code_fits FS l (x + size_qm31 i) r
  end.

Definition all_labels (g : gst) : list string :=
  map fst (g_labels g) ++ map snd (g_blobs g) ++ (if g_heap g then [HEAP] else []).
Definition ends_ok (f : func) : bool :=
  match last (map b_term (f_blocks f)) TUnreachable with TUnreachable => false | _ => true end.
(** The whole condition: the modules' functions do not share slots, labels are distinct
    (see C41), no function ends in an unreachable block. *)
Definition checked (fs : funcs) (FS : Z) (lives : list (list (list nat))) : bool :=
  let ms := legal_funcs fs in
  match lay_all ms, gen_module fs, compile fs with
  | COk Ls, COk g, COk p =>
    funcs_ok ms FS 0 [] false ms Ls lives && distinct (all_labels g) && forallb (fun x => ends_ok (snd x)) ms
    && code_fits FS (spans ms 0 [] false ms Ls) 0 (p_code p)
    && forallb (fun z => (0 <=? z) && (z <? P)) (p_data p) && match p_code p with [] => false | _ => true end
  | _, _, _ => false
  end.

(** A way to find the sets of needed values: start with none, add what the check misses. *)
Definition add_all (l a : list nat) : list nat := fold_left (fun a v => if memb v a then a else v :: a) l a.
Definition live_step (f : func) (live : list (list nat)) : list (list nat) :=
  map (fun x => add_all (needed (b_instrs (snd x)) (term_uses (b_term (snd x)) ++ flat_map (live_at live) (targets (b_term (snd x)))))
                        (live_at live (fst x)))
      (combine (seq 0 (length (f_blocks f))) (f_blocks f)).
Definition live_sets (f : func) : list (list nat) :=
  Nat.iter (length (f_blocks f) + 1) (live_step f) (map (fun _ => []) (f_blocks f)).
Definition find_lives (fs : funcs) : list (list (list nat)) := map (fun x => live_sets (snd x)) (legal_funcs fs).
