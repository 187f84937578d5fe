(** How a shell cuts a command into words, what programs need, and how processes end. *)
From Verif Require Import Base.
(** Blanks separate words; double quotes keep blanks in a word (the other special characters are excluded in the theorems). *)
Definition put (cur : option (list Z)) (c : Z) : option (list Z) := match cur with None => Some [c] | Some w => Some (w ++ [c]) end.
Fixpoint lex (quoted : bool) (cur : option (list Z)) (s : list Z) : list (list Z) :=
  match s with
  | [] => match cur with None => [] | Some w => [w] end
  | c :: s =>
    if c =? 34 then lex (negb quoted) (match cur with None => Some [] | _ => cur end) s
    else if (c =? 32) && negb quoted then match cur with None => [] | Some w => [w] end ++ lex false None s
    else lex quoted (put cur c) s
  end.
Definition words (s : list Z) : list (list Z) := lex false None s.
(** A name: no blanks and quotes.  A path: no quotes.  Shell characters such as the dollar sign are excluded too. *)
Definition special (c : Z) : bool := existsb (Z.eqb c) [34; 36; 92; 96].
Definition is_path (s : list Z) : Prop := forallb (fun c => negb (special c)) s = true.
Definition is_name (s : list Z) : Prop := s <> [] /\ is_path s /\ ~ In 32 s.
(** The modules a module needs. *)
Inductive needs (imports : list Z -> list (list Z)) (m : list Z) : list Z -> Prop :=
| needs_self : needs imports m m
| needs_import i x : In i (imports m) -> needs imports i x -> needs imports m x.
(** How a command ends, and the status the system reports for it. *)
Inductive outcome := Exited (n : Z) | Killed (sig : Z) (core : bool) | NotRun.
Definition reported (o : outcome) : Z := match o with Exited n => n * 256 | Killed s core => s + (if core then 128 else 0) | NotRun => -1 end.
Definition possible (o : outcome) : Prop := match o with Exited n => 0 <= n < 256 | Killed s _ => 1 <= s < 127 | NotRun => True end.
(** The status a process that calls exit(code) ends with. *)
Definition exit_status (code : Z) : Z := code mod 256.
