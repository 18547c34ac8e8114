(** Independent specification of what the adapter has to produce, in terms of the history
    of accesses of a run of the flat machine.  Nothing here refers to the adapter's maps. *)
From Coq Require Import ZArith Bool List.
From Verif Require Import M31 Instr Isa Machine Abi AirMem Adapter.
Import ListNotations.
Open Scope Z_scope.

(** A run with the log of each instruction kept apart. *)
Notation event := (state * instr * list access)%type.
Inductive eruns : flat -> state -> list event -> flat -> state -> Prop :=
| eruns_nil f f' s : (forall a, f' a = f a) -> eruns f s [] f' s
| eruns_cons f s i f1 s1 lg ev f2 s2 :
    fstep f s i f1 s1 lg -> eruns f1 s1 ev f2 s2 -> eruns f s ((s, i, lg) :: ev) f2 s2.
Definition ev_state (e : event) : state := fst (fst e).
Definition ev_instr (e : event) : instr := snd (fst e).
Definition ev_log (e : event) : list access := snd e.

(** An access with the number of the instruction that makes it: address, content, clock. *)
Notation timed := (Z * qm31 * Z)%type.
Definition at_clock (clk : Z) (l : list access) : list timed := map (fun x => (fst x, snd x, clk)) l.
Fixpoint timeline (clk : Z) (ev : list event) : list timed :=
  match ev with
  | [] => []
  | e :: r => at_clock clk (ev_log e) ++ timeline (clk + 1) r
  end.

(** Histories have the latest access first. *)
Fixpoint last_at (h : list timed) (a : Z) : option (qm31 * Z) :=
  match h with
  | [] => None
  | (b, v, c) :: r => if b =? a then Some (v, c) else last_at r a
  end.
Fixpoint first_at (h : list timed) (a : Z) : option qm31 :=
  match h with
  | [] => None
  | (b, v, _) :: r => match first_at r a with Some x => Some x | None => if b =? a then Some v else None end
  end.

(** One move of a cell: from its previous content and clock to the content and clock of the
    access; and the content with which the cell started. *)
Record move : Set := Move {
  mv_addr : Z; mv_old : qm31; mv_from : Z; mv_new : qm31; mv_clk : Z; mv_first : qm31 }.
Definition or_else {A} (o : option A) (d : A) : A := match o with Some x => x | None => d end.
(** [ini a]: the content of [a] when the segment starts, if the segment has the cell.  A
    cell it does not have counts as starting with what the first access leaves there. *)
Definition move_of (ini : Z -> option qm31) (h : list timed) (x : timed) : move :=
  let '(a, v, clk) := x in
  Move a (match last_at h a with Some (u, _) => u | None => or_else (ini a) v end)
         (match last_at h a with Some (_, c) => c | None => 0 end) v clk
         (or_else (ini a) (or_else (first_at h a) v)).
Fixpoint moves (ini : Z -> option qm31) (h : list timed) (l : list timed) : list move :=
  match l with
  | [] => []
  | x :: r => move_of ini h x :: moves ini (x :: h) r
  end.

(** Gaps longer than 2^20 - 1 are bridged in steps of 2^20 - 1. *)
Definition GAP : Z := 1048575.
Definition bridges (d : Z) : Z := if GAP <? d then d / GAP else 0.
Definition mv_start (m : move) : Z := mv_from m + bridges (mv_clk m - mv_from m) * GAP.
(** The intermediate accesses: address, clock, content. *)
Definition mv_bridges (m : move) : list timed :=
  map (fun k => (mv_addr m, mv_first m, mv_from m + Z.of_nat k * GAP))
      (seq 0 (Z.to_nat (bridges (mv_clk m - mv_from m)))).

(** The bundles expected from a run: one per instruction, in order. *)
Definition access_of (x : move) : daccess := DA (mv_addr x) (mv_start x) (q0 (mv_old x)) (q0 (mv_new x)).
Fixpoint expected (ini : Z -> option qm31) (h : list timed) (clk : Z) (ev : list event) : list bundle :=
  match ev with
  | [] => []
  | (s, i, lg) :: r =>
    let l := at_clock clk lg in
    let ms := moves ini h l in
    Bundle s clk i (match ms with m :: _ => mv_start m | [] => 0 end)
           (map access_of (skipn (length (code_addrs (pc s) i)) ms))
    :: expected ini (rev l ++ h) (clk + 1) r
  end.

(** The memory tokens of an adapted segment, as (address, clock, content): the cells with
    multiplicity 1 of the initial memory, with multiplicity -1 of the final one, the clock
    updates, the accesses and the public cells. *)
Definition mult_is (k : Z) (x : Z * cellv) : bool := snd (snd x) =? k.
Definition ctok (x : Z * cellv) : list Z := tok (fst x) (snd (fst (snd x))) (fst (fst (snd x))).
Definition toks (k : Z) (l : amap) : list (list Z) := map ctok (filter (mult_is k) l).
Definition cu_old (x : Z * Z * qm31) : list Z := let '(a, c, v) := x in tok a c v.
Definition cu_new (x : Z * Z * qm31) : list Z := let '(a, c, v) := x in tok a (c + GAP) v.
Definition ptok (x : Z * qm31 * Z) : list Z := let '(a, v, c) := x in tok a c v.
Definition acc_new (x : move) : list Z := tok (mv_addr x) (mv_clk x) (mv_new x).
Definition acc_old (x : move) : list Z := tok (mv_addr x) (mv_start x) (mv_old x).
Definition emitted (r : ranges) (m : amem) (xs : list move) : list (list Z) :=
  toks 1 (a_ini m) ++ map cu_new (a_cu m) ++ map acc_new xs ++
  map ptok (extract (a_ini m) (r_program r) ++ extract (a_ini m) (r_input r)).
Definition taken (r : ranges) (m : amem) (xs : list move) : list (list Z) :=
  toks (P - 1) (a_fin m) ++ map cu_old (a_cu m) ++ map acc_old xs ++
  map ptok (extract (a_fin m) (r_output r)).
(** A gap longer than 2^20 - 1 ends while the cell still has its first content. *)
Definition calm (x : move) : Prop := GAP < mv_clk x - mv_from x -> mv_old x = mv_first x.
(** What the range check of an access looks at. *)
Definition clock_gap (x : move) : Z := mv_clk x - mv_start x - 1.

(** A segment's initial memory: one entry per address, clock 0, multiplicity 0. *)
Definition keys (l : amap) : list Z := map fst l.
Definition blank (i0 : amap) : Prop := NoDup (keys i0) /\ forall a v c k, hget i0 a = Some (v, c, k) -> c = 0 /\ k = 0.
Definition ini_of (l : amap) (a : Z) : option qm31 := match hget l a with Some (v, _, _) => Some v | None => None end.
(** A cell without its multiplicity. *)
Definition view (l : amap) (a : Z) : option (qm31 * Z) := match hget l a with Some (v, c, _) => Some (v, c) | None => None end.
(** The public ranges: inside the field, pairwise disjoint. *)
Definition ranges_ok (r : ranges) : Prop :=
  Forall wf (ranged (r_program r) ++ ranged (r_input r) ++ ranged (r_output r)) /\
  NoDup (ranged (r_program r) ++ ranged (r_input r) ++ ranged (r_output r)).
