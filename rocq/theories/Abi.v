(** The call interface: encoding arguments, decoding return values, running an entry
    point.  Models crates/common/src/program.rs 11-122 and crates/runner/src/lib.rs. *)
From Coq Require Import ZArith Bool List.
From Verif Require Import M31 Instr VmMem Vm Cli.
Import ListNotations.
Open Scope Z_scope.

(** program.rs 11-32 [AbiType] (the name of a struct is dropped; field names are kept). *)
Inductive abi : Set :=
| AFelt | ABool | AU32
| APointer (e : abi) (len : option Z)
| ATuple (l : list abi)
| AStruct (fields : list (list Z * abi))
| AArray (e : abi) (size : Z)
| AUnit.

(** abi_codec.rs 44-54 [CairoMValue]. *)
Inductive cval : Set :=
| VFelt (x : Z) | VBool (b : bool) | VU32 (x : Z) | VPointer (x : Z)
| VTuple (l : list cval) | VStruct (l : list (list Z * cval)) | VArray (l : list cval) | VUnit.

(** [RunnerError] with the variants of [AbiCodecError]; [APanic] is a Rust panic. *)
Inductive aerr : Set :=
| ATypeMismatch | AInsufficient | ATrailing | AArgumentCount | AVm (e : verr) | APanic | AFuel.
Inductive ares (A : Type) : Type := AOk (a : A) | AErr (e : aerr).
Arguments AOk {A} a. Arguments AErr {A} e.
Definition abind {A B} (x : ares A) (f : A -> ares B) : ares B :=
  match x with AOk a => f a | AErr e => AErr e end.
Declare Scope abi_scope.
Delimit Scope abi_scope with abi.
Notation "'let?' x := e 'in' f" := (abind e (fun x => f)) (at level 200, x pattern, f at level 200) : abi_scope.
Open Scope abi_scope.

Definition zsum (l : list Z) : Z := fold_right Z.add 0 l.

(** program.rs 53-65 [call_slot_size]. *)
Fixpoint call_slots (t : abi) : Z :=
  match t with
  | AFelt | ABool => 1
  | AU32 => 2
  | APointer _ _ => 1
  | ATuple l => zsum (map call_slots l)
  | AStruct fs => zsum (map (fun f => call_slots (snd f)) fs)
  | AArray _ _ => 1
  | AUnit => 0
  end.

(** lib.rs 74-92 [calculate_array_materialization_size]. *)
Fixpoint array_cells (t : abi) : Z :=
  match t with
  | AArray e n => n * (call_slots e + array_cells e)
  | ATuple l => zsum (map array_cells l)
  | AStruct fs => zsum (map (fun f => array_cells (snd f)) fs)
  | _ => 0
  end.

(** lib.rs 97-134 [calculate_array_materialization_size_with_value]; None: the
    [assert_eq!] fails. *)
Definition osum (a b : option Z) : option Z :=
  match a, b with Some x, Some y => Some (x + y) | _, _ => None end.
Fixpoint value_cells (t : abi) (v : input) : option Z :=
  match t, v with
  | AArray e n, IList vs => if n =? zlen vs then Some (n * (call_slots e + array_cells e)) else None
  | APointer e len, IList vs =>
    Some ((match len with Some k => k | None => zlen vs end) * (call_slots e + array_cells e))
  | APointer e len, INumber _ =>
    Some ((match len with Some k => k | None => 1 end) * (call_slots e + array_cells e))
  | ATuple ts, IList vs =>
    (fix go ts vs := match ts, vs with
       | t :: ts', v :: vs' => osum (value_cells t v) (go ts' vs')
       | _, _ => Some 0
       end) ts vs
  | AStruct fs, IStruct vs =>
    (fix go fs vs := match fs, vs with
       | (_, t) :: fs', v :: vs' => osum (value_cells t v) (go fs' vs')
       | _, _ => Some 0
       end) fs vs
  | _, _ => Some 0
  end.

(** The loop [insert_no_trace(base + i, m)] (lib.rs 523-527, 593-597). *)
Fixpoint put_cells (base i : Z) (ms : list Z) (m : mem) : ares mem :=
  match ms with
  | [] => AOk m
  | x :: r =>
    match insert_no_trace (madd base (mfrom i)) (qofm x) m with
    | (m', Ok _) => put_cells base (i + 1) r m'
    | (_, Err e) => AErr (AVm e)
    end
  end.

Definition U32_MAX : Z := 4294967295.
(** lib.rs 494-621 [encode_value_for_call]: returns the memory, the cursor and the slots
    pushed to [dst]. *)
Fixpoint encode (t : abi) (v : input) (m : mem) (cur : Z) : ares (mem * Z * list Z) :=
  let elements (e : abi) :=
    (fix go (vs : list input) (m : mem) (cur : Z) : ares (mem * Z * list Z) :=
       match vs with
       | [] => AOk (m, cur, [])
       | v :: r =>
         let? (m1, c1, s1) := encode e v m cur in
         let? (m2, c2, s2) := go r m1 c1 in
         AOk (m2, c2, s1 ++ s2)
       end) in
  let inline (e : abi) (vs : list input) :=
    let? (m1, base, ms) := elements e vs m cur in
    let? m2 := put_cells base 0 ms m1 in
    AOk (m2, madd base (mfrom (zlen ms)), [base]) in
  match t, v with
  | AFelt, INumber n => AOk (m, cur, [m31_from_i64 n])
  | APointer e len, IList vs =>
    match len with
    | Some k => if k =? zlen vs then inline e vs else AErr ATypeMismatch
    | None => inline e vs
    end
  | ABool, INumber n =>
    if n =? 0 then AOk (m, cur, [0]) else if n =? 1 then AOk (m, cur, [1]) else AErr ATypeMismatch
  | ABool, IBool b => AOk (m, cur, [if b then 1 else 0])
  | AU32, INumber n =>
    if (n <? 0) || (U32_MAX <? n) then AErr ATypeMismatch
    else AOk (m, cur, [mfrom (Z.land n 65535); mfrom (Z.shiftr n 16)])
  | ATuple ts, IList vs =>
    if zlen ts =? zlen vs then
      (fix go ts vs m cur := match ts, vs with
         | t :: ts', v :: vs' =>
           let? (m1, c1, s1) := encode t v m cur in
           let? (m2, c2, s2) := go ts' vs' m1 c1 in
           AOk (m2, c2, s1 ++ s2)
         | _, _ => AOk (m, cur, [])
         end) ts vs m cur
    else AErr ATypeMismatch
  | AStruct fs, IStruct vs =>
    if zlen fs =? zlen vs then
      (fix go fs vs m cur := match fs, vs with
         | (_, t) :: fs', v :: vs' =>
           let? (m1, c1, s1) := encode t v m cur in
           let? (m2, c2, s2) := go fs' vs' m1 c1 in
           AOk (m2, c2, s1 ++ s2)
         | _, _ => AOk (m, cur, [])
         end) fs vs m cur
    else AErr ATypeMismatch
  | AArray e n, IList vs => if n =? zlen vs then inline e vs else AErr ATypeMismatch
  | AUnit, IUnit => AOk (m, cur, [])
  | _, _ => AErr ATypeMismatch
  end.

(** lib.rs 144-153 and 164-173. *)
Definition to_bool (x : Z) : ares bool :=
  if x =? 0 then AOk false else if x =? 1 then AOk true else AErr ATypeMismatch.
Definition to_u32 (lo hi : Z) : ares Z :=
  if (65535 <? lo) || (65535 <? hi) then AErr ATypeMismatch else AOk (Z.lor lo (Z.shiftl hi 16)).

(** [vm.memory.get_data] (the read is also appended to the access log of the finished
    run, which nothing looks at afterwards; dropped here). *)
Definition peek (m : mem) (a : Z) : ares Z :=
  match get_qm31 m a with Ok v => AOk (q0 v) | Err e => AErr (AVm e) end.

(** lib.rs 185-203, 219-285 and 296-307: [decode_value_with_custom_reader], with
    [read_array_from_memory] and [decode_value_from_memory] inlined.  [rd] reads one slot.
    Returns the value and the number of slots used. *)
Fixpoint decode (t : abi) (m : mem) (rd : Z -> ares Z) (off : Z) : ares (cval * Z) :=
  let array (e : abi) (n : Z) (base : Z) :=
    (fix go (k : nat) (o : Z) : ares (list cval) :=
       match k with
       | O => AOk []
       | S k' =>
         let a := madd base (mfrom o) in
         let? (x, used) := decode e m (fun i => peek m (madd a (mfrom i))) 0 in
         let? r := go k' (o + used) in
         AOk (x :: r)
       end) (Z.to_nat n) 0 in
  match t with
  | AFelt => let? x := rd off in AOk (VFelt x, 1)
  | APointer e len =>
    let? x := rd off in
    match len with
    | Some n => let? l := array e n x in AOk (VArray l, 1)
    | None => AOk (VPointer x, 1)
    end
  | ABool => let? x := rd off in let? b := to_bool x in AOk (VBool b, 1)
  | AU32 => let? lo := rd off in let? hi := rd (off + 1) in let? x := to_u32 lo hi in AOk (VU32 x, 2)
  | ATuple ts =>
    let? (l, n) :=
      (fix go ts o := match ts with
         | [] => AOk ([], 0)
         | t :: r =>
           let? (x, u) := decode t m rd (off + o) in
           let? (l, n) := go r (o + u) in
           AOk (x :: l, u + n)
         end) ts 0 in
    AOk (VTuple l, n)
  | AStruct fs =>
    let? (l, n) :=
      (fix go fs o := match fs with
         | [] => AOk ([], 0)
         | (name, t) :: r =>
           let? (x, u) := decode t m rd (off + o) in
           let? (l, n) := go r (o + u) in
           AOk ((name, x) :: l, u + n)
         end) fs 0 in
    AOk (VStruct l, n)
  | AArray e n => let? x := rd off in let? l := array e n x in AOk (VArray l, 1)
  | AUnit => AOk (VUnit, 0)
  end.

(** lib.rs 319-341: reading from the return frame. *)
Definition slot (frame : list Z) (start i : Z) : ares Z :=
  match znth frame (start + i) with Some x => AOk x | None => AErr AInsufficient end.
(** lib.rs 351-372 [decode_all_return_values]. *)
Fixpoint decode_all (ts : list abi) (frame : list Z) (pos : Z) (m : mem) : ares (list cval) :=
  match ts with
  | [] => if pos =? zlen frame then AOk [] else AErr ATrailing
  | t :: r =>
    let? (x, u) := decode t m (slot frame pos) 0 in
    let? l := decode_all r frame (pos + u) m in
    AOk (x :: l)
  end.

(** program.rs 85-99 [EntrypointInfo] (parameter names are dropped). *)
Record entrypoint : Set := Entry { ep_pc : Z; ep_params : list abi; ep_returns : list abi }.
(** program.rs 102-122 [PublicAddressRanges::new]: starts and ends. *)
Record ranges : Set := Ranges { r_program : Z * Z; r_input : Z * Z; r_output : Z * Z }.
Definition public_ranges (program_length num_args num_returns : Z) : ranges :=
  let i := program_length + num_args in
  Ranges (0, program_length) (program_length, i) (i, i + num_returns).

(** lib.rs 433-441: encoding all arguments. *)
Fixpoint encode_all (ts : list abi) (vs : list input) (m : mem) (cur : Z) : ares (mem * Z * list Z) :=
  match ts, vs with
  | t :: ts', v :: vs' =>
    let? (m1, c1, s1) := encode t v m cur in
    let? (m2, c2, s2) := encode_all ts' vs' m1 c1 in
    AOk (m2, c2, s1 ++ s2)
  | _, _ => AOk (m, cur, [])
  end.
Fixpoint all_cells (ts : list abi) (vs : list input) : option Z :=
  match ts, vs with
  | t :: ts', v :: vs' => osum (value_cells t v) (all_cells ts' vs')
  | _, _ => Some 0
  end.

(** lib.rs 384-451: everything before the run: the virtual machine ready to execute, the
    encoded arguments and the number of return slots. *)
Definition setup (p : list pdata) (ep : entrypoint) (args : list input) : ares (vm * list Z * Z) :=
  if negb (zlen (ep_params ep) =? zlen args) then AErr AArgumentCount
  else
    let v := load p in
    match all_cells (ep_params ep) args with
    | None => AErr APanic
    | Some cells =>
      let nargs := zsum (map call_slots (ep_params ep)) in
      let nret := zsum (map call_slots (ep_returns ep)) in
      let? (m, _, slots) := encode_all (ep_params ep) args (v_mem v) (fp (v_st v)) in
      match prepare (set_mem v m) (ep_pc ep) (cells + nargs + nret + 2) slots nret with
      | (v', Ok _) => AOk (v', slots, nret)
      | (_, Err e) => AErr (AVm e)
      end
    end.

(** lib.rs 453-462: the return frame, below the saved registers. *)
Fixpoint return_frame (n : nat) (i nret : Z) (v : vm) : ares (list Z) :=
  match n with
  | O => AOk []
  | S k =>
    let? x := peek (v_mem v) (msub (fp (v_st v)) (mfrom (nret + 2 - i))) in
    let? r := return_frame k (i + 1) nret v in
    AOk (x :: r)
  end.
(** lib.rs 384-481 [run_cairo_program], for an entry point that was found. *)
Definition run_program (fuel sfuel : nat) (max_steps : Z) (p : list pdata) (ep : entrypoint) (args : list input)
    : ares (list cval * vm * ranges) :=
  let? (v, slots, nret) := setup p ep args in
  match seg_loop fuel sfuel max_steps v with
  | (v', LOk _) =>
    let? frame := return_frame (Z.to_nat nret) 0 nret v' in
    let? vals := decode_all (ep_returns ep) frame 0 (v_mem v') in
    AOk (vals, v', public_ranges (v_final v') (zlen slots) nret)
  | (_, LErr e) => AErr (AVm e)
  | (_, OutOfFuel) => AErr AFuel
  end.
