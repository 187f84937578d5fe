(** What the files of a module mean to its users. *)
From Verif Require Import Base CrunModel.
(** A symbol file describes the interface of a source if comparing it with the one that belongs to the source shows no difference. *)
Definition describes (w : world) (y : text) (s : src) : Prop :=
  let v := compare w y (symtext s) in foreign v = false /\ broken v = false /\ events v = [] /\ reffp v = false.
(** The object file in [d] is what the C compiler made of the C file and the header that are there now; these, and the symbol file if there is one,
    belong to the same source, one of those that have been compiled.  A main program has neither header nor symbol file. *)
Definition consistent (w : world) (compiled : src -> Prop) (d : dir) (m : nat) : Prop :=
  forall c, d m Obj = Some c ->
  exists s d0, compiled s /\ self s = m /\ d m Body = Some (bodytext s) /\ cc w d0 m = Some c /\ d0 m Body = d m Body /\ d0 m Hdr = d m Hdr /\
    (d m Hdr = Some (hdrtext s) /\ (forall y, d m Sym = Some y -> describes w y s) \/ d m Hdr = None /\ d m Sym = None).
(** Directories after any history of commands, each of them run to its end or stopped anywhere, and the sources that were named in them. *)
Inductive history (w : world) (d0 : dir) : list src -> dir -> Prop :=
  | Start : history w d0 [] d0
  | Command : forall ss d us n, history w d0 ss d -> history w d0 (map snd us ++ ss) (apply (firstn n (Translate w us d)) d).
(** The symbol file a client finds. *)
Definition found (w : world) (d : dir) (m : nat) (y : text) : Prop :=
  before w m = Some y \/ before w m = None /\ d m Sym = Some y \/ before w m = None /\ d m Sym = None /\ after w m = Some y.
