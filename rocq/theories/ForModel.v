(** FOR statements. *)
From Verif Require Import Base.

(** A program state with an integer variable v of w bits that FOR counts with, and a temporary variable. *)
Section For.
  Variable state : Type.
  Variable w : Z.
  Variable get : state -> Z.
  Variable set : Z -> state -> state.
  Variables from to : state -> res (Z * state).
  Variable body : state -> res state.

  (** OPB.Mod 1197 INC, written by OPC.Mod 1197-1200 as v += step: int arithmetic and conversion for the types shorter than int, signed arithmetic else. *)
  Definition increment (step : Z) (s : state) : res state :=
    if w <? 32 then Ok (set (wrap_s w (get s + step)) s) else let* v := chk w (get s + step) in Ok (set v s).
  (** OPP.Mod 829-842: the loop WHILE v <= temp DO body; INC(v, step) END (or >=). *)
  Fixpoint loop (fuel : nat) (temp step : Z) (s : state) : res state :=
    match fuel with
    | O => Fuel
    | S f =>
        if (if step >? 0 then get s <=? temp else get s >=? temp) then
          let* s := body s in
          let* s := increment step s in
          loop f temp step s
        else Ok s
    end.
  (** OPP.Mod 807-843: @for := to; v := from; the loop.  The assignments are accepted for values of v's type only (OPB.CheckAssign), so they do not change the values. *)
  Definition for_stat (fuel : nat) (step : Z) (s : state) : res state :=
    let* (temp, s) := to s in
    let* (v, s) := from s in
    loop fuel temp step (set v s).
End For.
