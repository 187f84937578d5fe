(** Removing IF branches with constant guards. *)
From Verif Require Import Base.

Section OptIf.
Context {G S : Type}.
(** OPT Node Nif: [left] is the guard (an Nconst or another expression), [right] the statements, [link] the next ELSIF. *)
Inductive guard := GConst (b : bool) | GExpr (g : G).
Definition branch := (guard * S)%type.
(** The node after OptIf: x itself with its branches (x^.left) and ELSE part (x^.right), or the statements x was replaced by. *)
Inductive node := NIfElse (bs : list branch) (els : S) | NStats (s : S).
(** OPB.Mod 80-89, the second loop: the branches after [pred]; yields the branches kept and the ELSE part. *)
Fixpoint rest (bs : list branch) (els : S) : list branch * S :=
  match bs with
  | [] => ([], els)
  | (GConst true, s) :: _ => ([], s)
  | (GConst false, _) :: bs => rest bs els
  | (GExpr g, s) :: bs => let '(r, e) := rest bs els in ((GExpr g, s) :: r, e)
  end.
(** OPB.Mod 70-79, the first loop, on the branches from [if] on.  The parser always makes at least one branch (OPP.Mod 866-886). *)
Fixpoint OptIf (bs : list branch) (els : S) : node :=
  match bs with
  | [] => NStats els
  | (GConst true, s) :: _ => NStats s
  | (GConst false, _) :: bs => match bs with [] => NStats els | _ => OptIf bs els end
  | (GExpr g, s) :: bs => let '(r, e) := rest bs els in NIfElse ((GExpr g, s) :: r) e
  end.
End OptIf.
Arguments guard : clear implicits.
Arguments branch : clear implicits.
Arguments node : clear implicits.
