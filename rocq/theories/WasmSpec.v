(** What a blockless DAG means: WebAssembly's integer operations and memory, and womir's
    control flow.  Nothing here refers to the lowering.

    Sources: the WebAssembly core specification (numeric instructions of i32, memory
    instructions), and womir's blockless DAG: nodes are executed in order; a branch to a label
    goes on behind the label, which is further down in the DAG of the branch or in one of the
    DAGs around it, with the inputs of the branch as the outputs of the label; a branch to a
    loop starts the loop again with new inputs; a branch to the function returns. *)
From Coq Require Import ZArith Bool List.
From Verif Require Import M31 Isa Mir MirSem Wasm.
Import ListNotations.
Open Scope Z_scope.

(** A value, and whether it was made by a comparison. *)
Definition dval : Set := (Z * bool)%type.
Definition denv : Type := origin -> option dval.
Definition bytes : Type := Z -> Z.

(** Two's complement. *)
Definition signed (z : Z) : Z := if z <? 2 ^ 31 then z else z - 2 ^ 32.
Definition bit (b : bool) : Z := if b then 1 else 0.
Definition word (m : bytes) (a : Z) : Z := m a + 2 ^ 8 * m (a + 1) + 2 ^ 16 * m (a + 2) + 2 ^ 24 * m (a + 3).
Definition set_word (m : bytes) (a v : Z) : bytes :=
  fun x => if (a <=? x) && (x <? a + 4) then (v / 2 ^ (8 * (x - a))) mod 2 ^ 8 else m x.

(** Operations on numbers: the result, and whether the operation is a comparison. *)
Definition arith (w : wop) (vs : list Z) : res dval :=
  match w, vs with
  | WAdd, [x; y] => ROk ((x + y) mod 2 ^ 32, false)
  | WSub, [x; y] => ROk ((x - y) mod 2 ^ 32, false)
  | WMul, [x; y] => ROk ((x * y) mod 2 ^ 32, false)
  | WDivU, [x; y] => if y =? 0 then RTrap else ROk (x / y, false)
  | WAnd, [x; y] => ROk (Z.land x y, false)
  | WOr, [x; y] => ROk (Z.lor x y, false)
  | WXor, [x; y] => ROk (Z.lxor x y, false)
  | WEq, [x; y] => ROk (bit (x =? y), true)
  | WNe, [x; y] => ROk (bit (negb (x =? y)), true)
  | WGtU, [x; y] => ROk (bit (y <? x), true)
  | WGeU, [x; y] => ROk (bit (y <=? x), true)
  | WLtU, [x; y] => ROk (bit (x <? y), true)
  | WLeU, [x; y] => ROk (bit (x <=? y), true)
  | WLtS, [x; y] => ROk (bit (signed x <? signed y), true)
  | WGtS, [x; y] => ROk (bit (signed y <? signed x), true)
  | WLeS, [x; y] => ROk (bit (signed x <=? signed y), true)
  | WGeS, [x; y] => ROk (bit (signed y <=? signed x), true)
  | WEqz, [x] => ROk (bit (x =? 0), true)
  | WConst v, [] => ROk (v mod 2 ^ 32, false)
  | _, _ => RStuck
  end.

Definition set_out (e : denv) (k i : nat) (v : dval) : denv := fun o => if origin_eqb o (k, i) then Some v else e o.
Fixpoint set_outs (e : denv) (k i : nat) (vs : list dval) : denv :=
  match vs with [] => e | v :: r => set_outs (set_out e k i v) k (S i) r end.
Definition nothing : denv := fun _ => None.

(** The label [id] further down: its node, and what follows it. *)
Fixpoint find_label (id : nat) (d : dag) (k : nat) : option (nat * list wty * dag) :=
  match d with
  | Done => None
  | Next (OLabel i) _ outs rest => if Nat.eqb i id then Some (k, outs, rest) else find_label id rest (S k)
  | Next _ _ _ rest | Loop _ _ rest => find_label id rest (S k)
  end.

(** A loop that is being executed: its DAG, what follows it, and the values around it. *)
Record frame : Type := Frame { fr_sub : dag; fr_node : nat; fr_rest : dag; fr_env : denv }.

Section Run.
  (** The size of the memory; the number of parameters and the meaning of the functions of the
      module; the number of results of the function; and whether the run is careful: a careful
      run has no meaning where it uses the result of a comparison as a number, or a number as
      a condition although its low half is 0 and the number is not, or memory at addresses
      that are not multiples of four (or outside the memory), or leaves the function with a
      conditional branch, or calls a function that has not exactly one result. *)
  Variables (size : Z) (arity : nat -> option nat).
  Variable callee : nat -> list Z -> bytes -> res (list Z * bytes).
  Variables (results : nat) (careful : bool).

  Definition number (v : dval) : res Z := if careful && snd v then RStuck else ROk (fst v).
  Fixpoint numbers (os : list origin) (e : denv) : res (list Z) :=
    match os with
    | [] => ROk []
    | o :: r => rbind (of_opt (e o)) (fun v => rbind (number v) (fun z => rbind (numbers r e) (fun l => ROk (z :: l))))
    end.
  Definition condition (v : dval) : res bool :=
    if careful && negb (snd v) && (fst v mod 2 ^ 16 =? 0) && negb (fst v =? 0) then RStuck else ROk (negb (fst v =? 0)).
  Definition even_access (a off : Z) : bool := Z.even a && Z.even off && ((a + off) mod 4 =? 0).
  Definition access (a off : Z) : res Z :=
    if careful && negb (even_access a off) then RStuck
    else if a + off + 4 <=? size then ROk (a + off) else if careful then RStuck else RTrap.

  (** One operation: its outputs and the memory after it. *)
  Definition operate (w : wop) (vs : list Z) (m : bytes) : res (list dval * bytes) :=
    match w, vs with
    | WLoad off, [a] => rbind (access a off) (fun ea => ROk ([(word m ea, false)], m))
    | WStore off, [a; v] => rbind (access a off) (fun ea => ROk ([], set_word m ea v))
    | WCall f, _ =>
      match arity f with
      | Some n => if Nat.eqb (length vs) n
                  then rbind (callee f vs m) (fun r =>
                       if careful && negb (Nat.eqb (length (fst r)) 1) then RStuck
                       else ROk (map (fun z => (z, false)) (fst r), snd r))
                  else RStuck
      | None => RStuck
      end
    | (WLoad _ | WStore _), _ => RStuck
    | _, _ => rbind (arith w vs) (fun v => ROk ([v], m))
    end.

  (** Running a DAG inside the loops [fs]; at most [fuel] nodes are visited.  A label is only
      reached by a branch. *)
  Fixpoint drun (fuel : nat) (fs : list frame) (k : nat) (d : dag) (e : denv) (m : bytes) : res (list Z * bytes) :=
    match fuel with
    | O => RFuel
    | S n =>
      let go (t : target) (conditional : bool) (vs : list Z) (rest : dag) :=
        let vals := map (fun z => (z, false)) vs in
        let land (fs : list frame) (k : nat) (rest : dag) (e : denv) (id : nat) :=
          match find_label id rest k with
          | Some (j, outs, rest') =>
            if Nat.eqb (length vs) (length outs) then drun n fs (S j) rest' (set_outs e j 0 vals) m else RStuck
          | None => RStuck
          end in
        match t with
        | ToLabel id O => land fs (S k) rest e id
        | ToLabel id (S j) =>
          match nth_error fs j with
          | Some f => land (skipn (S j) fs) (fr_node f) (fr_rest f) (fr_env f) id
          | None => RStuck
          end
        | ToLoop j =>
          match nth_error fs j with
          | Some f => match fr_sub f with
                      | Next OInputs _ outs _ =>
                        if Nat.eqb (length vs) (length outs) then drun n (skipn j fs) 0 (fr_sub f) (set_outs nothing 0 0 vals) m else RStuck
                      | _ => RStuck
                      end
          | None => if Nat.eqb j (length fs) && Nat.eqb (length vs) results && negb (careful && conditional) then ROk (vs, m) else RStuck
          end
        end in
      match d with
      | Done => RStuck
      | Next op ins outs rest =>
        match op with
        | OInputs => drun n fs (S k) rest e m
        | OWasm w =>
          rbind (numbers ins e) (fun vs => rbind (operate w vs m) (fun r => drun n fs (S k) rest (set_outs e k 0 (fst r)) (snd r)))
        | OLabel _ | OBrTable => RStuck
        | OBr t => rbind (numbers ins e) (fun vs => go t false vs rest)
        | OBrIf t | OBrIfZero t =>
          rbind (of_opt (last_input ins)) (fun o => rbind (of_opt (e o)) (fun v => rbind (condition v) (fun c =>
          if Bool.eqb c match op with OBrIf _ => true | _ => false end
          then rbind (numbers (removelast ins) e) (fun vs => go t true vs rest)
          else drun n fs (S k) rest e m)))
        end
      | Loop ins sub rest =>
        rbind (numbers ins e) (fun vs =>
        match sub with
        | Next OInputs _ outs _ =>
          if Nat.eqb (length vs) (length outs)
          then drun n (Frame sub (S k) rest e :: fs) 0 sub (set_outs nothing 0 0 (map (fun z => (z, false)) vs)) m else RStuck
        | _ => RStuck
        end)
      end
    end.

  (** Calling a function. *)
  Definition dcall (fuel : nat) (d : dag) (args : list Z) (m : bytes) : res (list Z * bytes) :=
    drun fuel [] 0 d (set_outs nothing 0 0 (map (fun z => (z, false)) args)) m.
End Run.

(** ** DAGs as womir makes them *)
(** Behind a branch or a loop comes a label, or the end; offsets are natural numbers. *)
Definition offset_ok (w : wop) : bool := match w with WLoad o | WStore o => 0 <=? o | _ => true end.
Fixpoint tidy (live : bool) (d : dag) : bool :=
  match d with
  | Done => true
  | Next op _ _ rest =>
    match op with
    | OLabel _ => tidy true rest
    | OBr _ => live && tidy false rest
    | OWasm w => offset_ok w && live && tidy true rest
    | _ => live && tidy true rest
    end
  | Loop _ sub rest => live && tidy true sub && tidy false rest
  end.
(** The labels of a DAG, and those of the loops in it as well. *)
Fixpoint own_labels (d : dag) : list nat :=
  match d with
  | Done => []
  | Next op _ _ rest => match op with OLabel id => [id] | _ => [] end ++ own_labels rest
  | Loop _ _ rest => own_labels rest
  end.
Fixpoint all_labels (d : dag) : list nat :=
  match d with
  | Done => []
  | Next op _ _ rest => match op with OLabel id => [id] | _ => [] end ++ all_labels rest
  | Loop _ sub rest => all_labels sub ++ all_labels rest
  end.
Definition well_made (d : dag) : Prop := tidy true d = true /\ NoDup (all_labels d).

(** ** Modules *)
Record wfun : Type := Wfun { w_params : list wty; w_results : list wty; w_dag : dag }.
(** Calls in a module: [fuel] bounds their depth and the steps of each. *)
Fixpoint mrun (size : Z) (M : nat -> option wfun) (careful : bool) (fuel f : nat) (args : list Z) (m : bytes) : res (list Z * bytes) :=
  match fuel with
  | O => RFuel
  | S n =>
    match M f with
    | Some g =>
      if Nat.eqb (length args) (length (w_params g))
      then dcall size (fun h => option_map (@length wty) (option_map w_params (M h))) (mrun size M careful n) (length (w_results g)) careful n (w_dag g) args m
      else RStuck
    | None => RStuck
    end
  end.

(** ** The world a lowered function runs in *)
(** A memory of cells: a number of 32 bits lies in two cells, low half first; the cells at the
    top hold the WASM memory. *)
Definition cells : Type := Z -> Z.
Definition load_u32 (c : cells) (a : Z) : Z := c a + 2 ^ 16 * c (a + 1).
Definition store_u32 (c : cells) (a v : Z) : cells :=
  fun x => if x =? a then v mod 2 ^ 16 else if x =? a + 1 then v / 2 ^ 16 else c x.
Definition cell_world (call : nat -> list val -> cells -> res (list val * cells)) : world cells :=
  World cells
    (fun c _ b ss t => match b, ss, t with VFelt a, [], TU32 => ROk (VU32 (load_u32 c a)) | _, _, _ => RStuck end)
    (fun c _ b ss t v => match b, ss, t, v with VFelt a, [], TU32, VU32 z => ROk (store_u32 c a z) | _, _, _, _ => RStuck end)
    (fun _ _ _ _ _ => RStuck) (fun _ _ => RStuck) call.
(** The cells hold the words of the memory, downwards from the top. *)
Definition holds (size : Z) (m : bytes) (c : cells) : Prop :=
  forall k, 0 <= k -> 4 * k + 4 <= size -> load_u32 c (MAX_ADDRESS - 1 - 2 * k) = word m (4 * k) /\
    0 <= c (MAX_ADDRESS - 1 - 2 * k) < 2 ^ 16 /\ 0 <= c (MAX_ADDRESS - 2 * k) < 2 ^ 16.
Definition is_memory (m : bytes) : Prop := forall a, 0 <= m a < 2 ^ 8.

(** [call] runs functions as the MIR functions made of them run: when the body of a function
    ends, with calls answered by [call], so does the call. *)
Definition runs_as (compiled : nat -> option func) (call : nat -> list val -> cells -> res (list val * cells)) : Prop :=
  forall f F fuel args c, compiled f = Some F ->
  match call_fn (cell_world call) F fuel args c with
  | ROk r => call f args c = ROk r
  | RTrap => call f args c = RTrap
  | _ => True
  end.
