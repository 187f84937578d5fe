(** * C code for control statements: OPV.stat

    The generator ([src/compiler/OPV.Mod] 631-717 and 770-925) as a function from statements to C statements, and
    what these mean in C.  Simplifications: expressions, assignments and calls are the functions the source has for
    them (their own C text is the subject of C40, C48-C50 and C60); in a WITH the alias variable is left out; FOR has
    become WHILE and constant conditions are gone before (C47, C51); case labels are numbers (C48, C49). *)
From Verif Require Import Base FlowSpec.
Local Open Scope Z_scope.

Section Model.
Variable St : Type.

(** ** C statements *)
Inductive cstm :=
| CAct (f : act St)                                    (* f; *)
| CIf (c : test St) (a b : list cstm)                  (* if (c) { a } else { b } *)
| CSwitch (x : ival St) (b : list cstm)                (* switch (x) { b } *)
| CWhile (c : test St) (b : list cstm)                 (* while (c) { b } *)
| CDo (b : list cstm) (c : test St)                    (* do { b } while (!c); *)
| CFor (b : list cstm)                                 (* for (;;) { b } *)
| CBreak                                               (* break; *)
| CGoto (l : Z)                                        (* goto exit__l; *)
| CLabel (l : Z)                                       (* exit__l:; *)
| CCase (z : Z)                                        (* case z: *)
| CDefault                                             (* default: *)
| CReturn (v : option (ival St))                       (* return v; *)
| CHalt (k : Z).                                       (* __HALT(k); SYSTEM.h 113 *)

Inductive cout := ONorm | OBreak | OGoto (l : Z) | ORet (v : option Z).

(** How a list of statements is entered: from the start, by a jump to a label, to a case, to the default label. *)
Inductive entry := MRun | MGoto (l : Z) | MCase (v : Z) | MDefault.

Definition hit (m : entry) (s : cstm) : bool :=
  match m, s with
  | MGoto l, CLabel l' => l =? l'
  | MCase v, CCase z => v =? z
  | MDefault, CDefault => true
  | _, _ => false
  end.

(** What an entry that finds no place leaves. *)
Definition missed (m : entry) : cout := match m with MGoto l => OGoto l | _ => ONorm end.

(** Statements of one block, entered by [m].  A goto is taken to a label further down in the same block or in
    an enclosing one.  (C also allows jumps backwards and into inner blocks.  Here such a jump leads nowhere, that is
    to undefined behaviour at the end of the function; the generator makes none.) *)
Section Seq.
Variable ex : cstm -> St -> res (St * cout).

Fixpoint seq (m : entry) (l : list cstm) (st : St) {struct l} : res (St * cout) :=
  match l with
  | [] => Ok (st, missed m)
  | s :: r =>
    match m with
    | MRun =>
      let* (st1, o) := ex s st in
      match o with ONorm => seq MRun r st1 | OGoto k => seq (MGoto k) r st1 | _ => Ok (st1, o) end
    | _ => if hit m s then seq MRun r st else seq m r st
    end
  end.
End Seq.

Fixpoint c_while (n : nat) (c : test St) (b : St -> res (St * cout)) (st : St) : res (St * cout) :=
  match n with
  | O => Fuel
  | S n => let* (st1, t) := c st in
    if t then
      let* (st2, o) := b st1 in
      match o with ONorm => c_while n c b st2 | OBreak => Ok (st2, ONorm) | _ => Ok (st2, o) end
    else Ok (st1, ONorm)
  end.

Fixpoint c_do (n : nat) (b : St -> res (St * cout)) (c : test St) (st : St) : res (St * cout) :=
  match n with
  | O => Fuel
  | S n => let* (st1, o) := b st in
    match o with
    | ONorm => let* (st2, t) := c st1 in if negb t then c_do n b c st2 else Ok (st2, ONorm)
    | OBreak => Ok (st1, ONorm)
    | _ => Ok (st1, o)
    end
  end.

Fixpoint c_for (n : nat) (b : St -> res (St * cout)) (st : St) : res (St * cout) :=
  match n with
  | O => Fuel
  | S n => let* (st1, o) := b st in
    match o with ONorm => c_for n b st1 | OBreak => Ok (st1, ONorm) | _ => Ok (st1, o) end
  end.

(** Where a switch jumps to. *)
Definition choose (v : Z) (b : list cstm) : option entry :=
  if existsb (hit (MCase v)) b then Some (MCase v)
  else if existsb (hit MDefault) b then Some MDefault else None.

Fixpoint c_exec (n : nat) (s : cstm) (st : St) {struct s} : res (St * cout) :=
  match s with
  | CAct f => let* st1 := f st in Ok (st1, ONorm)
  | CIf c a b => let* (st1, t) := c st in if t then seq (c_exec n) MRun a st1 else seq (c_exec n) MRun b st1
  | CSwitch x b =>
    let* (st1, v) := x st in
    match choose v b with
    | None => Ok (st1, ONorm)
    | Some m =>
      let* (st2, o) := seq (c_exec n) m b st1 in
      match o with OBreak => Ok (st2, ONorm) | _ => Ok (st2, o) end
    end
  | CWhile c b => c_while n c (seq (c_exec n) MRun b) st
  | CDo b c => c_do n (seq (c_exec n) MRun b) c st
  | CFor b => c_for n (seq (c_exec n) MRun b) st
  | CBreak => Ok (st, OBreak)
  | CGoto l => Ok (st, OGoto l)
  | CLabel _ | CCase _ | CDefault => Ok (st, ONorm)
  | CReturn None => Ok (st, ORet None)
  | CReturn (Some v) => let* (st1, z) := v st in Ok (st1, ORet (Some z))
  | CHalt k => Trap k
  end.

(** A C function: break outside loops, or a goto without its label, has no meaning. *)
Definition c_run (n : nat) (b : list cstm) (st : St) : res (St * option Z) :=
  let* (st1, o) := seq (c_exec n) MRun b st in
  match o with ONorm => Ok (st1, None) | ORet v => Ok (st1, v) | _ => UB end.

(** ** The generator *)
Variable asserts : bool.

(** The global variables [exit] (OPV.Mod 48-50) and [nofExitLabels] (53): how many loops, other than LOOP, and
    CASE statements there are between here and the innermost LOOP, the label at its end (-1 for none), and the
    number of labels used up, a 16-bit INTEGER. *)
Record gst := mkG { g_level : Z; g_label : Z; g_count : Z }.

(** OPV.Mod 677-684: the labels of a range, one by one. *)
Fixpoint expand (k : nat) (low : Z) : list cstm :=
  match k with O => [] | S k => CCase low :: expand k (low + 1) end.
Definition range_labels (r : Z * Z) : list cstm := expand (Z.to_nat (snd r + 1 - fst r)) (fst r).

(** INC(exit.level), DEC(exit.level) *)
Definition inc_level (g : gst) : gst := mkG (g_level g + 1) (g_label g) (g_count g).
Definition dec_level (g : gst) : gst := mkG (g_level g - 1) (g_label g) (g_count g).

(** OPV.Mod 770-925 stat; 633-663 IfStat; 665-708 CaseStat. *)
Fixpoint gen (s : stat St) (g : gst) {struct s} : list cstm * gst :=
  match s with
  | SAct _ f => ([CAct f], g)
  | SIf _ a e =>                                         (* 870: IfStat(n, FALSE, outerProc) *)
    let (cs, g1) := gen_arms a g in
    let (ce, g2) := gen_seq e g1 in
    (cs ce, g2)
  | SWith _ a els e =>                                   (* 920: IfStat(n, n.subcl = 0, outerProc) *)
    let (cs, g1) := gen_arms a g in
    if els then let (ce, g2) := gen_seq e g1 in (cs ce, g2)
    else (cs [CHalt (-7)], g1)                           (* 659: __WITHCHK *)
  | SCase _ x c els e =>                                 (* 877 *)
    let (cs, g1) := gen_cases c (inc_level g) in
    if els then
      let (ce, g2) := gen_seq e g1 in
      ([CSwitch x (cs ++ CDefault :: ce ++ [CBreak])], dec_level g2)
    else ([CSwitch x (cs ++ [CDefault; CHalt (-4)])], dec_level g1)      (* 705: __CASECHK *)
  | SWhile _ c b =>                                      (* 878-880 *)
    let (cb, g1) := gen_seq b (inc_level g) in ([CWhile c cb], dec_level g1)
  | SRepeat _ b c =>                                     (* 881-883 *)
    let (cb, g1) := gen_seq b (inc_level g) in ([CDo cb c], dec_level g1)
  | SLoop _ b =>                                         (* 884-889 *)
    let (cb, g1) := gen_seq b (mkG 0 (-1) (g_count g)) in
    (CFor cb :: (if g_label g1 =? -1 then [] else [CLabel (g_label g1)]),
     mkG (g_level g) (g_label g) (g_count g1))
  | SExit _ =>                                           (* 890-894 *)
    if g_level g =? 0 then ([CBreak], g)
    else
      let g1 := if g_label g =? -1 then mkG (g_level g) (g_count g) (wrap_s 16 (g_count g + 1)) else g in
      ([CGoto (g_label g1)], g1)
  | SRet _ v => ([CReturn v], g)                         (* 895-919; scope structs: C65 *)
  | SHalt _ k => ([CHalt k], g)                          (* 921 *)
  | SAssert _ c k =>                                     (* 871-875, SYSTEM.h 114 *)
    ((if asserts then [CIf c [] [CHalt k]] else []), g)
  end
with gen_seq (l : stats St) (g : gst) {struct l} : list cstm * gst :=
  match l with
  | Nil _ => ([], g)
  | Cons _ s r => let (cs, g1) := gen s g in let (cr, g2) := gen_seq r g1 in (cs ++ cr, g2)
  end
(** if (c) { b } else ... : the rest of the chain and the last else part come later. *)
with gen_arms (a : arms St) (g : gst) {struct a} : (list cstm -> list cstm) * gst :=
  match a with
  | ANil _ => (fun e => e, g)
  | ACons _ c b r =>
    let (cb, g1) := gen_seq b g in let (cr, g2) := gen_arms r g1 in
    (fun e => [CIf c cb (cr e)], g2)
  end
(** 673-698 *)
with gen_cases (c : cases St) (g : gst) {struct c} : list cstm * gst :=
  match c with
  | CNil _ => ([], g)
  | CCons _ l b r =>
    let (cb, g1) := gen_seq b g in let (cr, g2) := gen_cases r g1 in
    (flat_map range_labels l ++ cb ++ CBreak :: cr, g2)
  end.

(** 710-714 ImplicitReturn *)
Fixpoint implicit_return (l : stats St) : bool :=
  match l with
  | Nil _ => true
  | Cons _ s r => match s with SRet _ _ => false | _ => implicit_return r end
  end.

(** A procedure with [cnt] labels used up before it (OPV.Mod 787-789, OPC.Mod 1060-1089 ExitProc, __RETCHK). *)
Definition gen_proc (fn : bool) (b : stats St) (cnt : Z) : list cstm * Z :=
  let (cs, g) := gen_seq b (mkG 0 (-1) cnt) in
  (cs ++ (if implicit_return b && fn then [CHalt (-3)] else []), g_count g).
End Model.
