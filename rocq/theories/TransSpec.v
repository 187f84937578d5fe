(** Programs that use the heap: what they mean, without any storage management, and how they run on the storage manager. *)
From Verif Require Import Base HeapModel HeapSpec.

(** A program is a sequence of operations on pointer variables: NEW of a type, assignment, NIL, reading and writing a pointer field, reading and
    writing any other field, comparison, and a call of the collector.  Variables are numbered, types too; fields are given by their
    offsets. *)
Inductive op := ONew (d t : nat) | OCopy (d v : nat) | ONil (d : nat) | OLoad (d v : nat) (o : Z) | OStore (d : nat) (o : Z) (v : nat)
  | OGet (v : nat) (o : Z) | OPut (d : nat) (o w : Z) | OEq (v w : nat) | OGC.
Inductive out := Word (w : Z) | Same (b : bool).
(** A type: address of its descriptor, block size, offsets of the pointer fields. *)
Definition types := nat -> option (Z * Z * list Z).
Definition ptr_field (ofs : list Z) (o : Z) : bool := isin o ofs.
Definition dat_field (bs : Z) (ofs : list Z) (o : Z) : bool := (0 <=? o) && (o + 16 <=? bs) && (o mod 8 =? 0) && negb (isin o ofs).

(** ** Meaning: objects are numbered in the order of their creation and live for ever *)
Record obj := { oty : nat; optr : Z -> option nat; odat : Z -> Z }.
Record store := { vars : list (option nat); objects : list obj }.
Definition newobj (t : nat) : obj := {| oty := t; optr := fun _ => None; odat := fun _ => 0 |}.
Definition setv (st : store) (d : nat) (v : option nat) : option store :=
  if (d <? length (vars st))%nat then Some {| vars := set_nth d v (vars st); objects := objects st |} else None.
Definition deref (tys : types) (st : store) (v : nat) : option (nat * obj * Z * list Z) :=
  match nth_error (vars st) v with
  | Some (Some i) => match nth_error (objects st) i with
                     | Some ob => match tys (oty ob) with Some (_, bs, ofs) => Some (i, ob, bs, ofs) | None => None end
                     | None => None
                     end
  | _ => None
  end.
Definition fset {A} (f : Z -> A) (o : Z) (v : A) : Z -> A := fun x => if x =? o then v else f x.
(** One operation.  [None]: the program is wrong (no such variable or field, or NIL is dereferenced).  With [full], memory is exhausted and NEW gives NIL. *)
Definition astep (tys : types) (full : bool) (p : op) (st : store) : option (store * list out) :=
  match p with
  | ONew d t =>
      match tys t with
      | Some _ =>
          if full then match setv st d None with Some st => Some (st, []) | None => None end
          else match setv {| vars := vars st; objects := objects st ++ [newobj t] |} d (Some (length (objects st))) with Some st => Some (st, []) | None => None end
      | None => None
      end
  | OCopy d v => match nth_error (vars st) v with Some x => match setv st d x with Some st => Some (st, []) | None => None end | None => None end
  | ONil d => match setv st d None with Some st => Some (st, []) | None => None end
  | OLoad d v o =>
      match deref tys st v with
      | Some (i, ob, bs, ofs) => if ptr_field ofs o then match setv st d (optr ob o) with Some st => Some (st, []) | None => None end else None
      | None => None
      end
  | OStore d o v =>
      match deref tys st d, nth_error (vars st) v with
      | Some (i, ob, bs, ofs), Some x =>
          if ptr_field ofs o then Some ({| vars := vars st; objects := set_nth i {| oty := oty ob; optr := fset (optr ob) o x; odat := odat ob |} (objects st) |}, []) else None
      | _, _ => None
      end
  | OGet v o => match deref tys st v with Some (i, ob, bs, ofs) => if dat_field bs ofs o then Some (st, [Word (odat ob o)]) else None | None => None end
  | OPut d o w =>
      match deref tys st d with
      | Some (i, ob, bs, ofs) =>
          if dat_field bs ofs o then Some ({| vars := vars st; objects := set_nth i {| oty := oty ob; optr := optr ob; odat := fset (odat ob) o w |} (objects st) |}, []) else None
      | None => None
      end
  | OEq v w =>
      match nth_error (vars st) v, nth_error (vars st) w with
      | Some x, Some y => Some (st, [Same (match x, y with None, None => true | Some i, Some j => Nat.eqb i j | _, _ => false end)])
      | _, _ => None
      end
  | OGC => Some (st, [])
  end.
Fixpoint arun (tys : types) (fulls : list bool) (ps : list op) (st : store) : option (store * list out) :=
  match ps, fulls with
  | [], _ => Some (st, [])
  | p :: ps, f :: fs =>
      match astep tys f p st with
      | Some (st, o) => match arun tys fs ps st with Some (st, os) => Some (st, o ++ os) | None => None end
      | None => None
      end
  | _ :: _, [] => None
  end.

(** ** Execution: variables hold addresses.  The first [k] are variables of modules, the others are on the stack, together with any other words
    [junk], which may change between operations. *)
Record env := { e_os : oracle; e_tys : types; e_k : nat; e_junk : nat -> list Z }.
Definition setc (r : list Z) (d : nat) (a : Z) : res (list Z) := if (d <? length r)%nat then Ok (set_nth d a r) else UB.
Definition getc (r : list Z) (v : nat) : res Z := match nth_error r v with Some a => Ok a | None => UB end.
Definition nopush (_ : list (Z * Z)) : list (Z * Z) := [].
Definition cstep (fuel : nat) (e : env) (t : nat) (p : op) (s : hst) (r : list Z) : res (hst * list Z * list out) :=
  let roots := firstn (e_k e) r in
  let ws := skipn (e_k e) r ++ e_junk e t in
  match p with
  | ONew d t =>
      match e_tys e t with
      | Some (tag, _, _) =>
          let* q := NEWREC fuel (e_os e) nopush roots ws tag s [] [] in
          let '(a, s, _, _) := q in let* r := setc r d a in Ok (s, r, [])
      | None => UB
      end
  | OCopy d v => let* a := getc r v in let* r := setc r d a in Ok (s, r, [])
  | ONil d => let* r := setc r d 0 in Ok (s, r, [])
  | OLoad d v o => let* a := getc r v in let* x := get (hm s) (a + o) in let* r := setc r d x in Ok (s, r, [])
  | OStore d o v => let* a := getc r d in let* x := getc r v in let* m := put (hm s) (a + o) x in Ok (setmem m s, r, [])
  | OGet v o => let* a := getc r v in let* x := get (hm s) (a + o) in Ok (s, r, [Word x])
  | OPut d o w => let* a := getc r d in let* m := put (hm s) (a + o) w in Ok (setmem m s, r, [])
  | OEq v w => let* a := getc r v in let* b := getc r w in Ok (s, r, [Same (a =? b)])
  | OGC => let* q := GC fuel nopush roots ws s [] [] in let '(s, _, _) := q in Ok (s, r, [])
  end.
Fixpoint crun (fuel : nat) (e : env) (t : nat) (ps : list op) (s : hst) (r : list Z) : res (hst * list Z * list out) :=
  match ps with
  | [] => Ok (s, r, [])
  | p :: ps =>
      let* q := cstep fuel e t p s r in
      let '(s, r, o) := q in
      let* q := crun fuel e (S t) ps s r in
      let '(s, r, os) := q in Ok (s, r, o ++ os)
  end.
