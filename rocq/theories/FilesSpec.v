(** What a user of Files expects: a file is a byte sequence, a rider is a position in it. *)
From Verif Require Import Base ArrZ FilesModel.

Record arider := mka { a_pos : Z; a_eof : bool; a_res : Z }.
Definition astate : Type := list Z * list arider.

(** xs written over c at position p (p <= LEN). *)
Definition overwrite (c : list Z) (p : Z) (xs : list Z) : list Z :=
  firstn (Z.to_nat p) c ++ xs ++ skipn (Z.to_nat (p + zlen xs)) c.

(** A flag that an operation leaves alone or clears. *)
Definition eof_kept (e e' : bool) : Prop := e' = e \/ e' = false.
Definition res_kept (r r' : Z) : Prop := r' = r \/ r' = 0.

(** One operation on the flat file.  A rider whose position lies behind the end (possible only after Purge) acts at the end. *)
Inductive astep : astate -> op -> obs -> astate -> Prop :=
| a_set : forall c rs i pos r, nth_error rs i = Some r ->
    astep (c, rs) (OSet i pos) VUnit (c, set_nth i (mka (Z.max 0 (Z.min pos (zlen c))) false 0) rs)
| a_read : forall c rs i r e' r', nth_error rs i = Some r -> a_pos r < zlen c ->
    eof_kept (a_eof r) e' -> res_kept (a_res r) r' ->
    astep (c, rs) (ORead i) (VByte (ix c (a_pos r)) e') (c, set_nth i (mka (a_pos r + 1) e' r') rs)
| a_read_end : forall c rs i r r', nth_error rs i = Some r -> zlen c <= a_pos r -> res_kept (a_res r) r' ->
    astep (c, rs) (ORead i) (VByte 0 true) (c, set_nth i (mka (zlen c) true r') rs)
| a_readbytes0 : forall c rs i lx n r, nth_error rs i = Some r -> n <= lx -> n <= 0 ->
    astep (c, rs) (OReadBytes i lx n) (VBytes [] false 0) (c, set_nth i (mka (a_pos r) false 0) rs)
| a_readbytes : forall c rs i lx n r q k, nth_error rs i = Some r -> n <= lx -> 0 < n ->
    q = Z.min (a_pos r) (zlen c) -> k = Z.min n (zlen c - q) ->
    astep (c, rs) (OReadBytes i lx n) (VBytes (firstn (Z.to_nat k) (skipn (Z.to_nat q) c)) (k <? n) (n - k))
          (c, set_nth i (mka (q + k) (k <? n) (n - k)) rs)
| a_write : forall c rs i x r q e', nth_error rs i = Some r -> q = Z.min (a_pos r) (zlen c) -> eof_kept (a_eof r) e' ->
    astep (c, rs) (OWrite i x) VUnit (overwrite c q [x], set_nth i (mka (q + 1) e' 0) rs)
| a_writebytes0 : forall c rs i x n r, nth_error rs i = Some r -> n <= zlen x -> n <= 0 ->
    astep (c, rs) (OWriteBytes i x n) VUnit (c, set_nth i (mka (a_pos r) (a_eof r) 0) rs)
| a_writebytes : forall c rs i x n r q e', nth_error rs i = Some r -> 0 < n <= zlen x ->
    q = Z.min (a_pos r) (zlen c) -> eof_kept (a_eof r) e' ->
    astep (c, rs) (OWriteBytes i x n) VUnit
          (overwrite c q (firstn (Z.to_nat n) x), set_nth i (mka (q + n) e' 0) rs)
| a_posq : forall c rs i r, nth_error rs i = Some r -> astep (c, rs) (OPos i) (VInt (a_pos r)) (c, rs)
| a_length : forall c rs, astep (c, rs) OLength (VInt (zlen c)) (c, rs)
| a_purge : forall c rs, astep (c, rs) OPurge VUnit ([], rs)
| a_close : forall c rs, astep (c, rs) OClose VUnit (c, rs).

Inductive asteps : astate -> list op -> list obs -> astate -> Prop :=
| as_nil : forall s, asteps s [] [] s
| as_cons : forall s o v s1 os vs s2, astep s o v s1 -> asteps s1 os vs s2 -> asteps s (o :: os) (v :: vs) s2.

(** Operations the interface allows with [n] riders: the rider exists, and no more bytes are asked for than the
    array parameter holds. *)
Definition op_ok (n : nat) (o : op) : Prop :=
  match o with
  | OSet i _ | ORead i | OWrite i _ | OPos i => (i < n)%nat
  | OReadBytes i lx k => (i < n)%nat /\ k <= lx
  | OWriteBytes i x k => (i < n)%nat /\ k <= zlen x
  | OLength | OPurge | OClose => True
  end.
