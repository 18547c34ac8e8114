(** Running a compiled program, and what its MIR says it should return. *)
From Coq Require Import ZArith Bool String List.
From Verif Require VmMem.
From Verif Require Import M31 Instr Vm Mir MirSem Cg CgLink.
Import ListNotations.
Open Scope Z_scope.

Definition find_entry (fn : string) (es : list (string * Z)) : option Z :=
  match find (fun e => String.eqb (fst e) fn) es with Some e => Some (snd e) | None => None end.
(** runner/src/lib.rs 384-466: call an entry point of a program whose arguments occupy
    the cells [args]; the cells of the results.  (Array arguments, which are first copied
    to memory, are left out; the results are not decoded here.) *)
Definition run_program (fuel sfuel : nat) (max_steps : Z) (p : program) (fn : string)
    (args : list Z) (nret : Z) : option (list (option Z)) :=
  match find_entry fn (p_entries p) with
  | None => None
  | Some pc0 =>
    match run_from_entrypoint fuel sfuel max_steps (Vm.load (image p)) pc0 (VmMem.zlen args + nret + 2) args nret with
    | (v, LOk _) =>
      Some (map (fun k => match snd (VmMem.get_data (msub (fp (v_st v)) (mfrom (nret + 2 - Z.of_nat k))) (v_mem v)) with
                          | VmMem.Ok q => Some q
                          | VmMem.Err _ => None
                          end) (List.seq 0 (Z.to_nat nret)))
    | _ => None
    end
  end.

(** The surroundings of a function of the module [ms]: calls run the callee, nested at
    most [n] deep, [F] blocks each; there is no other memory. *)
Fixpoint module_world (ms : funcs) (F n : nat) : world unit :=
  World unit (fun _ _ _ _ _ => RStuck) (fun _ _ _ _ _ _ => RStuck) (fun _ _ _ _ _ => RStuck)
    (fun _ _ => RStuck)
    (fun k args s =>
       match n with
       | O => RFuel
       | S n' => match nth_error ms k with
                 | Some (_, f) => call_fn (module_world ms F n') f F args s
                 | None => RStuck
                 end
       end).
(** The results of function [k] of the module. *)
Definition mir_call (ms : funcs) (F n : nat) (k : nat) (args : list val) : MirSem.res (list val * unit) :=
  w_call (module_world ms F n) k args tt.
