(** The parts of a file name. *)
From Verif Require Import Base OstrSpec.
(** s is l followed by r: r has no ch, and l is empty or ends with ch. *)
Definition split_after (ch : Z) (s l r : list Z) : Prop := s = l ++ r /\ ~ In ch r /\ (l = [] \/ exists l', l = l' ++ [ch]).
(** s has the extension e: it is n, a period and e, where e has neither period nor slash. *)
Definition extended (s n e : list Z) : Prop := s = n ++ 46 :: e /\ ~ In 46 e /\ ~ In 47 e.
Definition with_ext (n e : list Z) : list Z := match e with [] => n | _ => n ++ 46 :: e end.
Definition with_path (p n : list Z) : list Z := match p with [] => n | _ => if last p 0 =? 47 then p ++ n else p ++ 47 :: n end.
(** The array has room for the string s with its terminator. *)
Definition fits (a s : list Z) : Prop := (length s < length a)%nat.
