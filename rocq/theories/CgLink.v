(** Code generation, second half: rewriting of a function's instructions, label
    resolution and the program image.

    Models crates/compiler/codegen/src/passes/mod.rs, the module-level part of
    generator.rs and backend.rs.  The entry point table keeps only addresses. *)
From Coq Require Import ZArith Bool String List.
From Verif Require Import M31 Instr Mir MirLegal Vm Cg.
Import ListNotations.
Open Scope Z_scope.

(** An instruction and the label it refers to; a label and the index it marks. *)
Notation linstr := (instr * option string)%type.
Notation mark := (string * nat)%type.
(** The two vectors the builder keeps (builder/emit.rs). *)
Fixpoint split (n : nat) (is : list item) : list linstr * list mark :=
  match is with
  | [] => ([], [])
  | CI i t :: r => let x := split (S n) r in ((i, t) :: fst x, snd x)
  | CL l :: r => let x := split n r in (fst x, (l, n) :: snd x)
  end.

(** passes/mod.rs 391-398: do the two-slot ranges intersect? *)
Definition overlap (a b : Z) : bool := negb ((a + 1 <? b) || (b + 1 <? a)).
(** passes/mod.rs 194-450: an instruction reading the same cell twice is preceded by a
    copy of its first source into slots taken at the end of the frame [f]. *)
Definition dup1 (f a : Z) (same : bool) (op : Z -> instr) (i : linstr) : list linstr * Z :=
  if same then ([(StoreAddFpImm a 0 (mfrom f), None); (op (mfrom f), None)], f + 1) else ([i], f).
Definition dup2 (f a : Z) (same : bool) (op : Z -> instr) (i : linstr) : list linstr * Z :=
  if same then ([(U32StoreAddFpImm a 0 0 (mfrom f), None); (op (mfrom f), None)], f + 2) else ([i], f).
Definition dedup1 (f : Z) (i : linstr) : list linstr * Z :=
  match fst i with
  | StoreAddFpFp a b d => dup1 f a (a =? b) (fun t => StoreAddFpFp t b d) i
  | StoreSubFpFp a b d => dup1 f a (a =? b) (fun t => StoreSubFpFp t b d) i
  | StoreMulFpFp a b d => dup1 f a (a =? b) (fun t => StoreMulFpFp t b d) i
  | StoreDivFpFp a b d => dup1 f a (a =? b) (fun t => StoreDivFpFp t b d) i
  | U32StoreAddFpFp a b d => dup2 f a (overlap a b) (fun t => U32StoreAddFpFp t b d) i
  | U32StoreSubFpFp a b d => dup2 f a (overlap a b) (fun t => U32StoreSubFpFp t b d) i
  | U32StoreMulFpFp a b d => dup2 f a (overlap a b) (fun t => U32StoreMulFpFp t b d) i
  | U32StoreDivRemFpFp a b d r => dup2 f a (overlap a b) (fun t => U32StoreDivRemFpFp t b d r) i
  | U32StoreEqFpFp a b d => dup2 f a (overlap a b) (fun t => U32StoreEqFpFp t b d) i
  | U32StoreLtFpFp a b d => dup2 f a (overlap a b) (fun t => U32StoreLtFpFp t b d) i
  | _ => ([i], f)
  end.
(** passes/mod.rs 39-85: the replacement of every instruction, in order. *)
Fixpoint dedup (f : Z) (is : list linstr) : list (list linstr) * Z :=
  match is with
  | [] => ([], f)
  | i :: r => let x := dedup1 f i in
              let y := dedup (snd x) r in
              (fst x :: fst y, snd y)
  end.
(** passes/mod.rs 65-80: a label moves to the first replacement of what it marked; one
    behind the last instruction stays as it is. *)
Definition remap (reps : list (list linstr)) (n : nat) : nat :=
  if Nat.ltb n (length reps) then length (concat (firstn n reps)) else n.
(** passes/mod.rs 87-182: multiplication by 1 and by 0. *)
Definition canon (i : instr) : instr :=
  match i with
  | StoreMulFpImm a imm d =>
    if imm =? 1 then StoreAddFpImm a 0 d else if imm =? 0 then StoreImm 0 d else i
  | U32StoreMulFpImm a lo hi d =>
    if (lo =? 1) && (hi =? 0) then U32StoreAddFpImm a 0 0 d
    else if (lo =? 0) && (hi =? 0) then U32StoreImm 0 0 d else i
  | _ => i
  end.
Definition canon_l (i : linstr) : linstr := (canon (fst i), snd i).

(** What the generator accumulates over the functions (generator.rs 30-60). *)
Record gst : Type := Gst {
  g_code : list linstr; g_labels : list mark; g_entries : list mark;
  g_cnt : N; g_blobs : list (list Z * string); g_heap : bool }.
Definition gst0 : gst := Gst [] [] [] 0 [] false.
(** generator.rs 2338-2378: types allowed in a signature. *)
Fixpoint abi_ok (t : ty) : bool :=
  match t with
  | TFelt | TBool | TU32 | TUnit => true
  | TPtr e | TArr e _ => abi_ok e
  | TTuple ts => (fix go l := match l with [] => true | t :: r => abi_ok t && go r end) ts
  | TStruct _ fs => (fix go l := match l with [] => true | f :: r => abi_ok (snd f) && go r end) fs
  | TFun | TErr | TUnknown => false
  end.
Definition abi_all (f : func) (vs : list nat) : bool :=
  match types_of f vs with Some ts => forallb abi_ok ts | None => false end.
(** generator.rs 356-435: [generate_function].  The label counter is a 64-bit number
    (an overflow wraps in release builds; debug builds panic). *)
Definition gen_one (ms : funcs) (g : gst) (fn : string) (f : func) (L : layout) : cres gst :=
  if abi_all f (f_params f) && abi_all f (f_rets f) then
    match gen_func ms fn f (est0 L (g_cnt g) (g_blobs g) (g_heap g)) with
    | COk (_, is, s) =>
      let x := split 0 is in
      let reps := fst (dedup (frame (lay s)) (fst x)) in
      let base := length (g_code g) in
      COk (Gst (g_code g ++ map canon_l (concat reps))
               (g_labels g ++ map (fun l => (fst l, (base + remap reps (snd l))%nat)) (snd x))
               (g_entries g ++ [(fn, base)])
               ((gcnt s + lbl s) mod 18446744073709551616) (blobs s) (heap s))
    | CErr => CErr
    | CPanic => CPanic
    end
  else CErr.
Fixpoint gen_all (ms : funcs) (g : gst) (fs : funcs) (Ls : list layout) : cres gst :=
  match fs, Ls with
  | (fn, f) :: fs', L :: Ls' =>
    match gen_one ms g fn f L with COk g' => gen_all ms g' fs' Ls' | CErr => CErr | CPanic => CPanic end
  | _, _ => COk g
  end.
(** generator.rs 250-256: all layouts first. *)
Fixpoint lay_all (fs : funcs) : cres (list layout) :=
  match fs with
  | [] => COk []
  | (_, f) :: r => match lay_new f, lay_all r with
                   | COk L, COk Ls => COk (L :: Ls)
                   | COk _, e => e
                   | CErr, _ => CErr
                   | CPanic, _ => CPanic
                   end
  end.

(** generator.rs 259-281: the address of each instruction, in words. *)
Definition words (is : list linstr) : Z := fold_right (fun i n => size_qm31 (fst i) + n) 0 is.
Definition phys (is : list linstr) (k : nat) : option Z :=
  if Nat.ltb k (length is) then Some (words (firstn k is)) else None.
(** generator.rs 1560-1648: label addresses, in the order they enter the table. *)
Fixpoint place_marks (is : list linstr) (ms : list mark) : option (list (string * Z)) :=
  match ms with
  | [] => Some []
  | (l, k) :: r => match phys is k, place_marks is r with
                   | Some a, Some t => Some ((l, a) :: t)
                   | _, _ => None
                   end
  end.
Fixpoint place_blobs (a : Z) (bs : list (list Z * string)) : list (string * Z) :=
  match bs with
  | [] => []
  | (w, l) :: r => (l, a) :: place_blobs (a + Z.of_nat (length w)) r
  end.
Definition blob_words (bs : list (list Z * string)) : list Z := flat_map fst bs.
Definition LIMIT : Z := 1073741824.
Definition table (g : gst) : option (list (string * Z)) :=
  let c := words (g_code g) in
  let d := c + Z.of_nat (length (blob_words (g_blobs g))) in
  let e := d + (if g_heap g then 1 else 0) in
  if e <? LIMIT then
    match place_marks (g_code g) (g_entries g), place_marks (g_code g) (g_labels g) with
    | Some x, Some y => Some (x ++ y ++ place_blobs c (g_blobs g) ++ (if g_heap g then [(HEAP, d)] else []))
    | _, _ => None
    end
  else None.
(** A hash table filled in that order: the last entry for a name counts. *)
Fixpoint lookup (l : string) (t : list (string * Z)) : option Z :=
  match t with
  | [] => None
  | (m, a) :: r => match lookup l r with
                   | Some b => Some b
                   | None => if String.eqb m l then Some a else None
                   end
  end.
(** generator.rs 1650-1701: one instruction at address [pc]. *)
Definition resolve1 (t : list (string * Z)) (pc : Z) (i : linstr) : option instr :=
  match snd i with
  | None => Some (fst i)
  | Some l =>
    match lookup l t with
    | None => None
    | Some a =>
      match fst i with
      | JmpRelImm _ => Some (JmpRelImm (mfrom (a - pc)))
      | JnzFpImm c _ => Some (JnzFpImm c (mfrom (a - pc)))
      | CallAbsImm o _ => Some (CallAbsImm o (mfrom a))
      | StoreImm _ d => Some (StoreImm (mfrom a) d)
      | _ => None
      end
    end
  end.
Fixpoint resolve (t : list (string * Z)) (pc : Z) (is : list linstr) : option (list instr) :=
  match is with
  | [] => Some []
  | i :: r => match resolve1 t pc i, resolve t (pc + size_qm31 (fst i)) r with
              | Some j, Some js => Some (j :: js)
              | _, _ => None
              end
  end.

(** The finished program: code, then read-only data, then the heap cursor; the address of
    every function (generator.rs 213-247). *)
Record program : Set := Prog { p_code : list instr; p_data : list Z; p_entries : list (string * Z) }.
Definition image (p : program) : list pdata :=
  map PInstr (p_code p) ++ map (fun z => PValue (qofm z)) (p_data p).
Definition link (g : gst) : cres program :=
  match table g, place_marks (g_code g) (g_entries g) with
  | Some t, Some es =>
    match resolve t 0 (g_code g) with
    | Some c => COk (Prog c (blob_words (g_blobs g) ++ (if g_heap g then [0] else [])) es)
    | None => CErr
    end
  | _, _ => CErr
  end.

(** backend.rs 9-38, mir/src/{module,function}.rs [validate]. *)
Fixpoint distinct (l : list string) : bool :=
  match l with [] => true | x :: r => negb (existsb (String.eqb x) r) && distinct r end.
Fixpoint rets_agree (f : func) (vs : list value) (rs : list nat) : bool :=
  match vs, rs with
  | [], [] => true
  | v :: vs', r :: rs' =>
    match v with
    | Op i => match f_types f i, f_types f r with Some a, Some b => ty_eqb a b | _, _ => true end
    | _ => true
    end && rets_agree f vs' rs'
  | _, _ => false
  end.
Definition valid_func (f : func) : bool :=
  Nat.ltb (f_entry f) (length (f_blocks f))
  && forallb (fun b => forallb (fun t => Nat.ltb t (length (f_blocks f))) (targets (b_term b))
                       && match b_term b with TReturn vs => rets_agree f vs (f_rets f) | _ => true end
                       && negb (existsb is_phi (b_instrs b))) (f_blocks f).
Definition valid_module (fs : funcs) : bool :=
  distinct (map fst fs) && forallb (fun x => valid_func (snd x)) fs.

(** generator.rs 192-210: legalise, lay out, generate, resolve. *)
Definition legal_funcs (fs : funcs) : funcs := map (fun x => (fst x, legalize (snd x))) fs.
Definition gen_module (fs : funcs) : cres gst :=
  let ms := legal_funcs fs in
  match lay_all ms with
  | COk Ls => gen_all ms gst0 ms Ls
  | CErr => CErr
  | CPanic => CPanic
  end.
(** backend.rs 43-54: [compile_module]. *)
Definition compile (fs : funcs) : cres program :=
  if valid_module fs then
    match gen_module fs with COk g => link g | CErr => CErr | CPanic => CPanic end
  else CErr.
