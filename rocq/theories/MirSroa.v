(** Scalar replacement of aggregates, the first pass of the standard pipeline.

    Models crates/compiler/mir/src/passes/sroa.rs with its default configuration (lines
    121-130: tuples and structs enabled, at most eight members).  The statistics and the
    [block_modified] flag are dropped: a block the code leaves alone comes out equal.  Hash
    maps are association lists with the latest entry first; hash sets are lists. *)
From Coq Require Import ZArith Bool String List.
From Verif Require Import M31 Mir MirSem.
Import ListNotations.
Open Scope nat_scope.

(** The three aggregate types (the patterns of lines 1106-1112, 1184, 1226-1231). *)
Definition agg_ty (t : ty) : bool := match t with TTuple _ | TStruct _ _ | TArr _ _ => true | _ => false end.

(** sroa.rs 168-184: [is_scalarizable]. *)
Definition scalarizable (t : ty) : bool :=
  match t with
  | TTuple ts => Nat.leb (length ts) 8
  | TStruct _ fs => Nat.leb (length fs) 8
  | TArr _ n => Nat.leb n 8
  | _ => false
  end.

(** sroa.rs 1387-1410: [AggState]; [from_struct_fields] lists the given values in the order
    of the type. *)
Definition states : Type := list (nat * list value).
Fixpoint st_get (v : nat) (st : states) : option (list value) :=
  match st with
  | [] => None
  | (w, es) :: r => if Nat.eqb v w then Some es else st_get v r
  end.
Definition from_fields (fs : list (string * value)) (fts : list (string * ty)) : option (list value) :=
  omap (fun ft => find_field (fst ft) fs) fts.

(** sroa.rs 1412-1417: [struct_field_index]. *)
Fixpoint position (n : string) (fts : list (string * ty)) : option nat :=
  match fts with
  | [] => None
  | (m, _) :: r => if String.eqb n m then Some 0 else option_map S (position n r)
  end.
Definition field_index (t : option ty) (n : string) : option nat :=
  match t with Some (TStruct _ fts) => position n fts | _ => None end.

Definition is_op (d : nat) (v : value) : bool := match v with Op i => Nat.eqb i d | _ => false end.
Definition int_value (v : value) : bool := match v with Lit (LInt _) => true | _ => false end.

Section Decide.
  Context (f : func) (cross : list nat) (is : list minstr).

  Definition makes (d : nat) (i : minstr) : bool :=
    match i with
    | IMakeStruct d' _ _ | IMakeTuple d' _ | IMakeArray d' _ _ _ => Nat.eqb d' d
    | _ => false
    end.

  (** sroa.rs 217-270: the conditions on the construction itself. *)
  Definition basic (d : nat) (i : minstr) : bool :=
    match i with
    | IMakeStruct _ fs t =>
      scalarizable t && negb (mem_nat d cross) &&
      match (match f_types f d with Some t' => Some t' | None => Some t end) with
      | Some (TStruct _ fts) => match from_fields fs fts with Some _ => true | None => false end
      | _ => false
      end
    | IMakeTuple _ _ =>
      match f_types f d with
      | Some (TTuple ts) => scalarizable (TTuple ts) && negb (mem_nat d cross)
      | _ => false
      end
    | IMakeArray _ _ _ _ =>
      match f_types f d with
      | Some (TArr t n) => scalarizable (TArr t n) && negb (mem_nat d cross)
      | _ => false
      end
    | _ => false
    end.

  Definition arr_typed (d : nat) : bool := match f_types f d with Some (TArr _ _) => true | _ => false end.

  (** sroa.rs 292-317, 332-353, 366-385: once for every position of a parent that holds [d]. *)
  Fixpoint parent (rec : list nat -> nat -> bool * list nat) (d p : nat) (es : list value) (vis : list nat)
    : bool * list nat :=
    match es with
    | [] => (true, vis)
    | e :: r =>
      if is_op d e
      then if arr_typed d then (false, vis)
           else let x := rec vis p in if fst x then parent rec d p r (snd x) else x
      else parent rec d p r vis
    end.

  (** sroa.rs 387-399: a load or store at [d] must start with a literal index. *)
  Definition access_ok (d : nat) (p : place) : bool :=
    negb (Nat.eqb (pl_base p) d) ||
    match pl_projs p with [] => true | PIdx v :: _ => int_value v | _ => false end.

  (** sroa.rs 272-404: the dependencies of [d]. *)
  Fixpoint scan (rec : list nat -> nat -> bool * list nat) (d : nat) (js : list minstr) (vis : list nat)
    : bool * list nat :=
    match js with
    | [] => (true, vis)
    | j :: r =>
      let x := match j with
               | ICall _ _ args _ => (negb (existsb (is_op d) args), vis)
               | IMakeStruct p fs _ => if Nat.eqb p d then (true, vis) else parent rec d p (map snd fs) vis
               | IMakeTuple p es | IMakeArray p es _ _ => if Nat.eqb p d then (true, vis) else parent rec d p es vis
               | ILoad _ p _ | IStore p _ _ => (access_ok d p, vis)
               | _ => (true, vis)
               end in
      if fst x then scan rec d r (snd x) else x
    end.

  (** sroa.rs 193-407: [can_scalarize_aggregate], with the set of visited values.  The fuel
      bounds the recursion; every call that goes on has visited one more construction, so
      one more than the number of instructions is enough. *)
  Fixpoint can (fuel : nat) (vis : list nat) (d : nat) : bool * list nat :=
    match fuel with
    | O => (false, vis)
    | S k =>
      if mem_nat d vis then (false, vis)
      else match find (makes d) is with
           | None => (false, d :: vis)
           | Some i => if basic d i then scan (can k) d is (d :: vis) else (false, d :: vis)
           end
    end.
  Definition can_scalarize (d : nat) : bool := fst (can (S (length is)) [] d).
End Decide.

(** sroa.rs 413-480: [build_aggregate_family]; one sweep over the instructions, and sweeps
    until nothing is added (each adds a destination, so the fuel is enough). *)
Definition same_kind (a : option ty) (b : ty) : bool :=
  match a, b with
  | Some (TArr _ _), TArr _ _ | Some (TTuple _), TTuple _ | Some (TStruct _ _), TStruct _ _ => true
  | _, _ => false
  end.
Definition fam_step (rt : option ty) (fam : list nat) (i : minstr) : list nat :=
  match i with
  | IAssign d (Op s) t => if same_kind rt t && mem_nat s fam && negb (mem_nat d fam) then d :: fam else fam
  | IInsertTuple d (Op s) _ _ _ | IInsertField d (Op s) _ _ _ =>
    if mem_nat s fam && negb (mem_nat d fam) then d :: fam else fam
  | _ => fam
  end.
Fixpoint fam_loop (fuel : nat) (rt : option ty) (is : list minstr) (fam : list nat) : list nat :=
  match fuel with
  | O => fam
  | S k => let fam' := fold_left (fam_step rt) is fam in
           if Nat.eqb (length fam') (length fam) then fam' else fam_loop k rt is fam'
  end.
Definition family (f : func) (is : list minstr) (root : nat) : list nat :=
  fam_loop (S (length is)) (f_types f root) is [root].

(** sroa.rs 483-520: [array_family_has_dynamic_index_use]. *)
Definition dynamic_at (fam : list nat) (p : place) : bool :=
  mem_nat (pl_base p) fam && match pl_projs p with PIdx v :: _ => negb (int_value v) | _ => false end.
Definition dynamic_use (f : func) (is : list minstr) (root : nat) : bool :=
  let fam := family f is root in
  existsb (fun i => match i with ILoad _ p _ | IStore p _ _ => dynamic_at fam p | _ => false end) is.

(** sroa.rs 524-592: [find_cross_block_aggregates].  The table of the code has one entry per
    root; roots are defined once. *)
Definition make_dest (i : minstr) : option nat :=
  match i with IMakeTuple d _ | IMakeStruct d _ _ | IMakeArray d _ _ _ => Some d | _ => None end.
Definition roots (f : func) (b : block) : list nat :=
  flat_map (fun i => match make_dest i with
                     | Some d => match f_types f d with Some t => if scalarizable t then [d] else [] | None => [] end
                     | None => []
                     end) (b_instrs b).
Fixpoint number {A} (n : nat) (l : list A) : list (nat * A) :=
  match l with [] => [] | a :: r => (n, a) :: number (S n) r end.
Definition families (f : func) : list (nat * list nat) :=
  flat_map (fun nb => map (fun r => (fst nb, family f (b_instrs (snd nb)) r)) (roots f (snd nb)))
           (number 0 (f_blocks f)).
(** sroa.rs 595-720 and 723-752: the uses looked at; debug output is skipped. *)
Definition seen_uses (i : minstr) : list nat := match i with IDebug _ _ => [] | _ => uses i end.
Definition block_uses (b : block) : list nat := flat_map seen_uses (b_instrs b) ++ term_uses (b_term b).
Definition cross_block (f : func) : list nat :=
  flat_map (fun df =>
    if existsb (fun nb => negb (Nat.eqb (fst nb) (fst df)) &&
                          existsb (fun u => mem_nat u (snd df)) (block_uses (snd nb)))
               (number 0 (f_blocks f))
    then snd df else []) (families f).

(** Value ids handed out so far, and the types recorded for the new ones. *)
Record ids : Type := Ids { i_next : nat; i_types : list (nat * ty) }.

(** sroa.rs 1421-1478: [materialize]; [None] is the failed assertion on array lengths. *)
Definition fit (n : nat) (es : list value) : list value := firstn n es ++ repeat (Lit LUnit) (n - length es).
Definition materialize (m : ids) (es : list value) (t : ty) : option (nat * list minstr * ids) :=
  let d := i_next m in
  let m' := Ids (S d) ((d, t) :: i_types m) in
  match t with
  | TTuple ts => Some (d, [IMakeTuple d (fit (length ts) es)], m')
  | TStruct _ fts => Some (d, [IMakeStruct d (combine (map fst fts) (fit (length fts) es)) t], m')
  | TArr et n => if Nat.eqb (length es) n then Some (d, [IMakeArray d es et false], m') else None
  | _ => Some (d, [], m')
  end.

(** value.rs 116-122: [as_const_integer]; the index of a literal into a list. *)
Definition const_index (v : value) (n : nat) : option nat :=
  let z := match v with Lit (LInt z) => Some z | Lit (LBool b) => Some (if b then 1%Z else 0%Z) | _ => None end in
  match z with
  | Some z => if (0 <=? z)%Z && (z <? Z.of_nat n)%Z then Some (Z.to_nat z) else None
  | None => None
  end.

(** The member a projection selects in the state of value [u] with [n] members. *)
Definition proj_index (f : func) (u : nat) (n : nat) (p : proj) : option nat :=
  match p with
  | PIdx v => const_index v n
  | PTup k => if Nat.ltb k n then Some k else None
  | PField name => match field_index (f_types f u) name with
                   | Some k => if Nat.ltb k n then Some k else None
                   | None => None
                   end
  end.

(** sroa.rs 1493-1549: [forward_projection_chain]. *)
Fixpoint chain (f : func) (st : states) (v : value) (ps : list proj) : option value :=
  match ps with
  | [] => Some v
  | p :: r =>
    match v with
    | Op u => match st_get u st with
              | Some es => match proj_index f u (length es) p with
                           | Some k => match nth_error es k with Some w => chain f st w r | None => None end
                           | None => None
                           end
              | None => None
              end
    | _ => None
    end
  end.

(** sroa.rs 1558-1615: [try_forward_store_chain]: the state of the value the last step starts
    from is changed in place. *)
Fixpoint store_chain (f : func) (st : states) (v : value) (ps : list proj) (new : value) : option states :=
  match ps with
  | [] => None
  | p :: r =>
    match v with
    | Op u => match st_get u st with
              | Some es => match proj_index f u (length es) p with
                           | Some k => match r with
                                       | [] => Some ((u, set_nth k new es) :: st)
                                       | _ => match nth_error es k with
                                              | Some w => store_chain f st w r new
                                              | None => None
                                              end
                                       end
                           | None => None
                           end
              | None => None
              end
    | _ => None
    end
  end.
Definition starts_const (p : place) : bool :=
  match pl_projs p with PIdx v :: _ => int_value v | _ => false end.

(** sroa.rs 1242-1300: the arguments of a call, each tracked one rebuilt with the type of its
    parameter. *)
Fixpoint call_args (st : states) (m : ids) (args : list value) (ps : list ty)
  : option (list value * list minstr * ids) :=
  match args with
  | [] => Some ([], [], m)
  | a :: r =>
    let p := match ps with t :: _ => Some t | [] => None end in
    let here := match a, p with
                | Op v, Some t => if agg_ty t then match st_get v st with Some es => Some (es, t) | None => None end
                                  else None
                | _, _ => None
                end in
    match here with
    | Some (es, t) =>
      match materialize m es t with
      | Some (d, out, m1) =>
        match call_args st m1 r (tl ps) with
        | Some (r', out', m2) => Some (Op d :: r', out ++ out', m2)
        | None => None
        end
      | None => None
      end
    | None =>
      match call_args st m r (tl ps) with
      | Some (r', out', m2) => Some (a :: r', out', m2)
      | None => None
      end
    end
  end.

(** sroa.rs 845-870: a tuple is scalarized unless it is a member of a tuple that is not. *)
Definition tuple_ok (f : func) (cross : list nat) (is : list minstr) (d : nat) : bool :=
  forallb (fun j => match j with
                    | IMakeTuple p es => Nat.eqb p d || negb (existsb (is_op d) es) || can_scalarize f cross is p
                    | _ => true
                    end) is.

(** What happens to a value taken out of a state (lines 1040-1055, 1092-1107, 1135-1153): its
    own state is handed on, or it is assigned. *)
Definition take (st : states) (d : nat) (w : value) (t : ty) (wanted : bool) : list minstr * states :=
  match w with
  | Op u => match st_get u st with
            | Some es => if wanted then ([], (d, es) :: st) else ([IAssign d w t], st)
            | None => ([IAssign d w t], st)
            end
  | _ => ([IAssign d w t], st)
  end.

(** sroa.rs 806-1304: one instruction.  [is] are the instructions of the block that are no
    phis.  The result is what replaces the instruction, and the states after it. *)
Definition step (f : func) (cross : list nat) (is : list minstr) (st : states) (m : ids) (i : minstr)
  : option (list minstr * states * ids) :=
  let same := Some ([i], st, m) in
  match i with
  | IMakeTuple d es =>
    match f_types f d with
    | Some (TTuple ts) =>
      if scalarizable (TTuple ts) && negb (mem_nat d cross) && tuple_ok f cross is d
      then Some ([], (d, es) :: st, m) else same
    | _ => same
    end
  | IMakeStruct d fs t =>
    if can_scalarize f cross is d
    then match (match f_types f d with Some t' => Some t' | None => Some t end) with
         | Some (TStruct _ fts) => match from_fields fs fts with
                                   | Some es => Some ([], (d, es) :: st, m)
                                   | None => same
                                   end
         | _ => same
         end
    else same
  | IMakeArray d es _ _ =>
    match f_types f d with
    | Some (TArr t n) =>
      if scalarizable (TArr t n) && negb (mem_nat d cross) && can_scalarize f cross is d &&
         negb (dynamic_use f is d)
      then Some ([], (d, es) :: st, m) else same
    | _ => same
    end
  | IInsertTuple d (Op s) k w _ =>
    match st_get s st with
    | Some es => if Nat.ltb k (length es) then Some ([], (d, set_nth k w es) :: st, m) else same
    | None => same
    end
  | IInsertField d (Op s) n w t =>
    match st_get s st with
    | Some es => match field_index (Some t) n with
                 | Some k => if Nat.ltb k (length es) then Some ([], (d, set_nth k w es) :: st, m) else same
                 | None => same
                 end
    | None => same
    end
  | IExtractTuple d (Op s) k t =>
    match st_get s st with
    | Some es => match nth_error es k with
                 | Some w => let x := take st d w t true in Some (fst x, snd x, m)
                 | None => same
                 end
    | None => same
    end
  | IExtractField d (Op s) n t =>
    match field_index (f_types f s) n with
    | Some k => match st_get s st with
                | Some es => match nth_error es k with
                             | Some w => let x := take st d w t true in Some (fst x, snd x, m)
                             | None => same
                             end
                | None => same
                end
    | None => same
    end
  | ILoad d p t =>
    if starts_const p
    then match chain f st (Op (pl_base p)) (pl_projs p) with
         | Some w => let x := take st d w t (agg_ty t) in Some (fst x, snd x, m)
         | None => same
         end
    else same
  | IStore p v t =>
    match (if starts_const p then store_chain f st (Op (pl_base p)) (pl_projs p) v else None) with
    | Some st' => Some ([], st', m)
    | None =>
      match v with
      | Op u => if agg_ty t
                then match st_get u st with
                     | Some es => match materialize m es t with
                                  | Some (d, out, m') => Some (out ++ [IStore p (Op d) t], st, m')
                                  | None => None
                                  end
                     | None => same
                     end
                else same
      | _ => same
      end
    end
  | IAssign d (Op s) t =>
    if agg_ty t
    then match st_get s st with Some es => Some ([], (d, es) :: st, m) | None => same end
    else same
  | ICall ds c args ps =>
    match call_args st m args ps with
    | Some (args', out, m') => Some (out ++ [ICall ds c args' ps], st, m')
    | None => None
    end
  | _ => same
  end.

Fixpoint steps (f : func) (cross : list nat) (is : list minstr) (st : states) (m : ids) (js : list minstr)
  : option (list minstr * states * ids) :=
  match js with
  | [] => Some ([], st, m)
  | j :: r =>
    match step f cross is st m j with
    | Some (out, st1, m1) =>
      match steps f cross is st1 m1 r with
      | Some (out', st2, m2) => Some (out ++ out', st2, m2)
      | None => None
      end
    | None => None
    end
  end.

(** sroa.rs 1306-1345: the values of a return. *)
Fixpoint ret_vals (f : func) (st : states) (m : ids) (vs : list value) : option (list value * list minstr * ids) :=
  match vs with
  | [] => Some ([], [], m)
  | v :: r =>
    let here := match v with
                | Op u => match st_get u st, f_types f u with Some es, Some t => Some (es, t) | _, _ => None end
                | _ => None
                end in
    match here with
    | Some (es, t) =>
      match materialize m es t with
      | Some (d, out, m1) =>
        match ret_vals f st m1 r with
        | Some (r', out', m2) => Some (Op d :: r', out ++ out', m2)
        | None => None
        end
      | None => None
      end
    | None =>
      match ret_vals f st m r with
      | Some (r', out', m2) => Some (v :: r', out', m2)
      | None => None
      end
    end
  end.
Definition sroa_term (f : func) (st : states) (m : ids) (t : term) : option (term * list minstr * ids) :=
  match t with
  | TReturn vs => match ret_vals f st m vs with
                  | Some (vs', out, m') => Some (TReturn vs', out, m')
                  | None => None
                  end
  | _ => Some (t, [], m)
  end.

(** sroa.rs 768-788: blocks with a tuple or struct phi are left alone. *)
Definition agg_phi (f : func) (b : block) : bool :=
  existsb (fun ph => match f_types f (fst (fst ph)) with
                     | Some (TTuple _) | Some (TStruct _ _) => true
                     | _ => false
                     end) (fst (span_phi (b_instrs b))).

(** sroa.rs 760-1360: one block; the values tracked at its end are also returned (they are
    the ones whose definitions were dropped). *)
Definition sroa_block (f : func) (cross : list nat) (m : ids) (b : block) : option (block * list nat * ids) :=
  if agg_phi f b then Some (b, [], m)
  else
    let sp := span_phi (b_instrs b) in
    let phis := map (fun ph => IPhi (fst (fst ph)) (snd (fst ph)) (snd ph)) (fst sp) in
    match steps f cross (snd sp) [] m (snd sp) with
    | Some (out, st, m1) =>
      match sroa_term f st m1 (b_term b) with
      | Some (t, out', m2) => Some (Block (phis ++ out ++ out') t (b_preds b), map fst st, m2)
      | None => None
      end
    | None => None
    end.
Fixpoint sroa_blocks (f : func) (cross : list nat) (m : ids) (bs : list block)
  : option (list block * list nat * ids) :=
  match bs with
  | [] => Some ([], [], m)
  | b :: r =>
    match sroa_block f cross m b with
    | Some (b', ks, m1) =>
      match sroa_blocks f cross m1 r with
      | Some (r', ks', m2) => Some (b' :: r', ks ++ ks', m2)
      | None => None
      end
    | None => None
    end
  end.

(** sroa.rs 755-1373: [run].  Types recorded for new values come before the old ones. *)
Fixpoint ty_get (v : nat) (l : list (nat * ty)) : option ty :=
  match l with
  | [] => None
  | (w, t) :: r => if Nat.eqb v w then Some t else ty_get v r
  end.
Definition sroa_run (f : func) : option (func * list nat) :=
  match sroa_blocks f (cross_block f) (Ids (f_next f) []) (f_blocks f) with
  | Some (bs, ks, m) =>
    Some (Func bs (f_entry f) (f_params f) (f_rets f) (i_next m)
               (fun v => match ty_get v (i_types m) with Some t => Some t | None => f_types f v end), ks)
  | None => None
  end.
Definition sroa_pass (f : func) : option func := option_map fst (sroa_run f).
