(** Which runs can be proved: conditions on the events of a run, in terms of the accesses it
    makes.  Each condition is needed (see Prop_Adapter.v and Prop_Trace.v). *)
From Coq Require Import ZArith Bool List.
From Verif Require Import M31 Abi Instr Isa Machine Adapter AdapterSpec AirSpec TraceSpec.
Import ListNotations.
Open Scope Z_scope.

Definition ev_code (e : event) : list Z := code_addrs (pc (ev_state e)) (ev_instr e).
Definition ev_words (e : event) : list Machine.access := firstn (length (ev_code e)) (ev_log e).
Definition ev_data (e : event) : list Z := map fst (skipn (length (ev_code e)) (ev_log e)).

Record plain (ini : Z -> option qm31) (f : flat) (ev : list event) : Prop := Plain {
  (** only instructions with a correct component *)
  pl_instr : Forall (fun e => provable (ev_instr e) = true) ev;
  (** no instruction touches a cell twice *)
  pl_once : Forall (fun e => NoDup (map fst (ev_log e))) ev;
  (** no long gap is a multiple of the bridging step *)
  pl_gap : Forall (fun x => GAP < mv_clk x - mv_from x -> (mv_clk x - mv_from x) mod GAP <> 0) (moves ini [] (timeline 1 ev));
  (** code words end in zeros *)
  pl_code : Forall (fun e => exists k, flat_map (fun x => qlist (snd x)) (ev_words e) = Instr.encode (ev_instr e) ++ repeat 0 k) ev;
  (** code is neither data nor part of two different instructions *)
  pl_apart : forall e1 e2 a, In e1 ev -> In e2 ev -> In a (ev_code e1) -> In a (map fst (ev_log e2)) -> ev_code e2 = ev_code e1;
  (** operands and results are in cells that hold field elements *)
  pl_felt : Forall (fun e => Forall (fun a => is_felt (f a)) (ev_data e)) ev }.

(** The access of a row, from a move. *)
Definition acc_of (m : move) : acc := Acc (mv_addr m) (mv_start m) (mv_old m) (mv_new m).
(** The steps of a run: number, registers before and after, instruction, and moves. *)
Record hstep : Set := HS { hs_clk : Z; hs_s : state; hs_t : state; hs_i : instr; hs_ms : list move }.
Fixpoint hsteps (ini : Z -> option qm31) (h : list timed) (clk : Z) (ev : list event) (s' : state) : list hstep :=
  match ev with
  | [] => []
  | e :: r =>
    HS clk (ev_state e) (match r with [] => s' | e' :: _ => ev_state e' end) (ev_instr e) (moves ini h (at_clock clk (ev_log e)))
    :: hsteps ini (rev (at_clock clk (ev_log e)) ++ h) (clk + 1) r s'
  end.
Definition bundle_for (x : hstep) : bundle :=
  Bundle (hs_s x) (hs_clk x) (hs_i x) (match hs_ms x with m :: _ => mv_start m | [] => 0 end)
         (map access_of (skipn (length (code_addrs (pc (hs_s x)) (hs_i x))) (hs_ms x))).
