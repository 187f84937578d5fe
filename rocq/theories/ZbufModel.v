(** The byte buffers of the zlib modules: src/library/s3/ethZlibBuffers.Mod.
    The buffer memory is the list of its bytes; addresses are relative to its beginning (adr = 0).  Touching other memory is UB, and so is a memcpy whose source and
    destination overlap: SYSTEM.MOVE is memcpy (src/runtime/SYSTEM.h 189).  Sums of lengths do not overflow. *)
From Verif Require Import Base.

(** ethZlibBuffers.Mod 14-24; [mem] is the memory. *)
Record buffer := { avail : Z; size : Z; totalOut : Z; totalIn : Z; next : Z; mem : list Z }.
(** len bytes at a, and storing bytes at a. *)
Definition load (m : list Z) (a len : Z) : res (list Z) :=
  if (0 <=? a) && (a + len <=? Z.of_nat (length m)) then Ok (firstn (Z.to_nat len) (skipn (Z.to_nat a) m)) else UB.
Definition store (m : list Z) (a : Z) (b : list Z) : res (list Z) :=
  if (0 <=? a) && (a + Z.of_nat (length b) <=? Z.of_nat (length m)) then Ok (firstn (Z.to_nat a) m ++ b ++ skipn (Z.to_nat a + length b) m) else UB.
(** SYSTEM.MOVE inside the memory. *)
Definition move (m : list Z) (src dst len : Z) : res (list Z) :=
  if (0 <? len) && (Z.abs (src - dst) <? len) then UB else let* b := load m src len in store m dst b.
Definition assert (c : bool) (n : Z) : res unit := if c then Ok tt else Trap n.
Definition part (a : list Z) (offset len : Z) : list Z := firstn (Z.to_nat len) (skipn (Z.to_nat offset) a).
Definition zl (a : list Z) : Z := Z.of_nat (length a).

(** ethZlibBuffers.Mod 33-38 [Init]; a is the client's array from offset on. *)
Definition Init (b : buffer) (a : list Z) (offset sz av : Z) : res buffer :=
  let* _ := assert ((0 <=? offset) && (0 <? sz) && (offset + sz <=? zl a)) 100 in
  let* _ := assert ((0 <=? av) && (av <=? sz)) 101 in
  Ok {| avail := av; size := sz; totalOut := totalOut b; totalIn := totalIn b; next := 0; mem := part a offset sz |}.
(** ethZlibBuffers.Mod 41-46 [Read]. *)
Definition Read (b : buffer) : res (buffer * list Z) :=
  let* _ := assert (avail b >? 0) 100 in
  let* ch := load (mem b) (next b) 1 in
  Ok ({| avail := avail b - 1; size := size b; totalOut := totalOut b; totalIn := totalIn b + 1; next := next b + 1; mem := mem b |}, ch).
(** ethZlibBuffers.Mod 49-54 [ReadBytes] into an array: the new array. *)
Definition ReadBytes (b : buffer) (dst : list Z) (offset len : Z) : res (buffer * list Z) :=
  let* _ := assert ((0 <=? offset) && (0 <? len) && (offset + len <=? zl dst) && (len <=? avail b)) 100 in
  let* x := load (mem b) (next b) len in
  let* dst := store dst offset x in
  Ok ({| avail := avail b - len; size := size b; totalOut := totalOut b; totalIn := totalIn b + len; next := next b + len; mem := mem b |}, dst).
(** ethZlibBuffers.Mod 57-62 [Write]. *)
Definition Write (b : buffer) (ch : Z) : res buffer :=
  let* _ := assert (avail b >? 0) 100 in
  let* m := store (mem b) (next b) [ch] in
  Ok {| avail := avail b - 1; size := size b; totalOut := totalOut b + 1; totalIn := totalIn b; next := next b + 1; mem := m |}.
(** ethZlibBuffers.Mod 65-70 [WriteBytes]. *)
Definition WriteBytes (b : buffer) (src : list Z) (offset len : Z) : res buffer :=
  let* _ := assert ((0 <=? offset) && (0 <? len) && (offset + len <=? zl src) && (len <=? avail b)) 100 in
  let* m := store (mem b) (next b) (part src offset len) in
  Ok {| avail := avail b - len; size := size b; totalOut := totalOut b + len; totalIn := totalIn b; next := next b + len; mem := m |}.
(** ethZlibBuffers.Mod 73-78 [Rewind], after the client has put [m] into the memory. *)
Definition Rewind (b : buffer) (m : list Z) (av : Z) : res buffer :=
  let* _ := assert (avail b =? 0) 100 in
  let* _ := assert ((0 <=? av) && (av <=? size b)) 101 in
  Ok {| avail := av; size := size b; totalOut := totalOut b; totalIn := totalIn b; next := 0; mem := m |}.
(** ethZlibBuffers.Mod 81-85 [Reread]. *)
Definition Reread (b : buffer) (offset : Z) : res buffer :=
  let* _ := assert ((0 <=? offset) && (avail b + offset <=? size b)) 101 in
  Ok {| avail := avail b + offset; size := size b; totalOut := totalOut b; totalIn := totalIn b; next := next b - offset; mem := mem b |}.
(** ethZlibBuffers.Mod 88-91 [Rewrite]. *)
Definition Rewrite (b : buffer) : buffer :=
  {| avail := size b; size := size b; totalOut := totalOut b; totalIn := totalIn b; next := 0; mem := mem b |}.
(** ethZlibBuffers.Mod 94-104 [Fill]. *)
Definition Fill (b : buffer) (src : list Z) (offset sz : Z) : res buffer :=
  let* _ := assert ((0 <=? offset) && (0 <? sz) && (offset + sz <=? zl src)) 100 in
  let* _ := assert (avail b + sz <=? size b) 101 in
  let* m := (if negb (avail b =? 0) then move (mem b) (next b) 0 (avail b) else Ok (mem b)) in
  let nxt := avail b in
  let* m := store m nxt (part src offset sz) in
  Ok {| avail := avail b + sz; size := size b; totalOut := totalOut b; totalIn := totalIn b; next := nxt; mem := m |}.
(** ethZlibBuffers.Mod 107-114 [Drain]: the new buffer and the new array. *)
Definition Drain (b : buffer) (dst : list Z) (offset sz : Z) : res (buffer * list Z) :=
  let* _ := assert ((0 <=? offset) && (0 <? sz) && (offset + sz <=? zl dst)) 100 in
  let* _ := assert (avail b + sz <=? size b) 101 in
  let* x := load (mem b) 0 sz in
  let* dst := store dst offset x in
  let* m := move (mem b) sz 0 (size b - avail b - sz) in
  Ok ({| avail := avail b + sz; size := size b; totalOut := totalOut b; totalIn := totalIn b; next := next b - sz; mem := m |}, dst).
