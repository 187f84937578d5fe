(** * Control statements of Oberon-2 and their meaning

    The report, chapter 9: IF, CASE, WHILE, REPEAT, LOOP, EXIT, WITH, RETURN, and HALT and ASSERT.  What assignments,
    calls and expressions do is left open: they are functions on some state [St], and may stop the program. *)
From Verif Require Import Base.
Local Open Scope Z_scope.

Section Spec.
Variable St : Type.

Definition act := St -> res St.
Definition test := St -> res (St * bool).
Definition ival := St -> res (St * Z).

Inductive stat :=
| SAct (f : act)                                            (* assignment, procedure call, predeclared procedure *)
| SIf (a : arms) (e : stats)                                (* no ELSE: nothing in [e] *)
| SCase (x : ival) (c : cases) (els : bool) (e : stats)     (* [els]: there is an ELSE *)
| SWith (a : arms) (els : bool) (e : stats)                 (* the tests are type tests *)
| SWhile (c : test) (b : stats)
| SRepeat (b : stats) (c : test)
| SLoop (b : stats)
| SExit
| SRet (v : option ival)
| SHalt (k : Z)
| SAssert (c : test) (k : Z)
with stats := Nil | Cons (s : stat) (r : stats)
with arms := ANil | ACons (c : test) (b : stats) (r : arms)
with cases := CNil | CCons (l : list (Z * Z)) (b : stats) (r : cases).

(** How a statement ends. *)
Inductive out := Norm | Exit | Ret (v : option Z).

(** Loops; each may go round [n] times before the answer is [Fuel]. *)
Fixpoint while (n : nat) (c : test) (b : St -> res (St * out)) (st : St) : res (St * out) :=
  match n with
  | O => Fuel
  | S n => let* (st1, t) := c st in
    if t then let* (st2, o) := b st1 in match o with Norm => while n c b st2 | _ => Ok (st2, o) end
    else Ok (st1, Norm)
  end.

Fixpoint repeat_ (n : nat) (b : St -> res (St * out)) (c : test) (st : St) : res (St * out) :=
  match n with
  | O => Fuel
  | S n => let* (st1, o) := b st in
    match o with
    | Norm => let* (st2, t) := c st1 in if t then Ok (st2, Norm) else repeat_ n b c st2
    | _ => Ok (st1, o)
    end
  end.

Fixpoint loop (n : nat) (b : St -> res (St * out)) (st : St) : res (St * out) :=
  match n with
  | O => Fuel
  | S n => let* (st1, o) := b st in
    match o with Norm => loop n b st1 | Exit => Ok (st1, Norm) | Ret v => Ok (st1, Ret v) end
  end.

Definition in_ranges (v : Z) (l : list (Z * Z)) : bool := existsb (fun r => (fst r <=? v) && (v <=? snd r)) l.

(** [asserts]: is ASSERT switched on? *)
Variable asserts : bool.

Fixpoint exec (n : nat) (s : stat) (st : St) {struct s} : res (St * out) :=
  match s with
  | SAct f => let* st1 := f st in Ok (st1, Norm)
  | SIf a e => exec_arms n a (fun st => execs n e st) st
  | SCase x c els e =>
    let* (st1, v) := x st in
    exec_cases n v c (fun st => if els then execs n e st else Trap (-4)) st1
  | SWith a els e => exec_arms n a (fun st => if els then execs n e st else Trap (-7)) st
  | SWhile c b => while n c (execs n b) st
  | SRepeat b c => repeat_ n (execs n b) c st
  | SLoop b => loop n (execs n b) st
  | SExit => Ok (st, Exit)
  | SRet None => Ok (st, Ret None)
  | SRet (Some v) => let* (st1, z) := v st in Ok (st1, Ret (Some z))
  | SHalt k => Trap k
  | SAssert c k =>
    if asserts then let* (st1, t) := c st in if t then Ok (st1, Norm) else Trap k else Ok (st, Norm)
  end
with execs (n : nat) (l : stats) (st : St) {struct l} : res (St * out) :=
  match l with
  | Nil => Ok (st, Norm)
  | Cons s r => let* (st1, o) := exec n s st in match o with Norm => execs n r st1 | _ => Ok (st1, o) end
  end
with exec_arms (n : nat) (a : arms) (e : St -> res (St * out)) (st : St) {struct a} : res (St * out) :=
  match a with
  | ANil => e st
  | ACons c b r => let* (st1, t) := c st in if t then execs n b st1 else exec_arms n r e st1
  end
with exec_cases (n : nat) (v : Z) (c : cases) (e : St -> res (St * out)) (st : St) {struct c} : res (St * out) :=
  match c with
  | CNil => e st
  | CCons l b r => if in_ranges v l then execs n b st else exec_cases n v r e st
  end.

(** A procedure body ([fn]: of a function procedure; its end must not be reached). *)
Definition run (n : nat) (fn : bool) (b : stats) (st : St) : res (St * option Z) :=
  let* (st1, o) := execs n b st in
  match o with
  | Norm => if fn then Trap (-3) else Ok (st1, None)
  | Ret v => Ok (st1, v)
  | Exit => UB
  end.

(** EXIT stands inside a LOOP only; [d]: inside one. *)
Fixpoint ok_stat (d : bool) (s : stat) : bool :=
  match s with
  | SIf a e => ok_arms d a && ok_stats d e
  | SCase _ c _ e => ok_cases d c && ok_stats d e
  | SWith a _ e => ok_arms d a && ok_stats d e
  | SWhile _ b | SRepeat b _ => ok_stats d b
  | SLoop b => ok_stats true b
  | SExit => d
  | _ => true
  end
with ok_stats (d : bool) (l : stats) : bool :=
  match l with Nil => true | Cons s r => ok_stat d s && ok_stats d r end
with ok_arms (d : bool) (a : arms) : bool :=
  match a with ANil => true | ACons _ b r => ok_stats d b && ok_arms d r end
with ok_cases (d : bool) (c : cases) : bool :=
  match c with CNil => true | CCons _ b r => ok_stats d b && ok_cases d r end.

(** Number of LOOP statements. *)
Fixpoint loops (s : stat) : Z :=
  match s with
  | SIf a e => loops_a a + loops_l e
  | SCase _ c _ e => loops_c c + loops_l e
  | SWith a _ e => loops_a a + loops_l e
  | SWhile _ b | SRepeat b _ => loops_l b
  | SLoop b => 1 + loops_l b
  | _ => 0
  end
with loops_l (l : stats) : Z := match l with Nil => 0 | Cons s r => loops s + loops_l r end
with loops_a (a : arms) : Z := match a with ANil => 0 | ACons _ b r => loops_l b + loops_a r end
with loops_c (c : cases) : Z := match c with CNil => 0 | CCons _ b r => loops_l b + loops_c r end.
End Spec.
