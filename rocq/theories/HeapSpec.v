(** Specification of the storage manager: object graphs, reachability, how memory represents them. *)
From Verif Require Import Base ArrZ HeapModel.

(** An object graph: the objects (addresses), for each its type descriptor and its pointer fields (offset, value). *)
Record graph := { objs : list Z; desc : Z -> Z; flds : Z -> list (Z * Z) }.
Inductive reach (g : graph) (r : Z) : Z -> Prop :=
| reach_root : r <> 0 -> reach g r r
| reach_step : forall x o c, reach g r x -> In (o, c) (flds g x) -> c <> 0 -> reach g r c.

(** Memory [m] represents [g] with exactly the objects [M] marked: the word before an object is its descriptor's address, plus one if it is
    marked; the descriptor lists the pointer offsets from its second word on and ends with a negative sentinel; the pointer fields hold
    NIL or objects. *)
Definition isin (x : Z) (M : list Z) : bool := if in_dec Z.eq_dec x M then true else false.
Record shows (m : mem) (g : graph) (M : list Z) : Prop := {
  sh_head : forall x, In x (objs g) -> m (x - 8) = Some (desc g x + if isin x M then 1 else 0);
  sh_even : forall x, In x (objs g) -> x <> 0 /\ Z.odd (desc g x) = false;
  sh_off : forall x l1 o c l2, In x (objs g) -> flds g x = l1 ++ (o, c) :: l2 -> m (desc g x + 8 + 8 * zlen l1) = Some o /\ 0 <= o;
  sh_end : forall x, In x (objs g) -> m (desc g x + 8 + 8 * zlen (flds g x)) = Some (- 8 * (zlen (flds g x) + 1));
  sh_fld : forall x o c, In x (objs g) -> In (o, c) (flds g x) -> m (x + o) = Some c /\ (c = 0 \/ In c (objs g))
}.
(** Headers, descriptors and pointer fields do not overlap. *)
Definition dword (g : graph) (y a : Z) : Prop := exists k, 0 <= k <= zlen (flds g y) /\ a = desc g y + 8 + 8 * k.
Record apart (g : graph) : Prop := {
  ap_hf : forall x y o c, In x (objs g) -> In y (objs g) -> In (o, c) (flds g y) -> x - 8 <> y + o;
  ap_hd : forall x y, In x (objs g) -> In y (objs g) -> ~ dword g y (x - 8);
  ap_fd : forall x y o c, In x (objs g) -> In y (objs g) -> In (o, c) (flds g x) -> ~ dword g y (x + o);
  ap_ff : forall x y o c o' c', In x (objs g) -> In y (objs g) -> In (o, c) (flds g x) -> In (o', c') (flds g y) -> x + o = y + o' -> x = y;
  ap_nd : forall x, In x (objs g) -> NoDup (map fst (flds g x))
}.
(** Marked objects point to marked objects only: the state between two calls of the marking procedure. *)
Definition mclosed (g : graph) (M : list Z) : Prop := forall x o c, In x M -> In (o, c) (flds g x) -> c <> 0 -> In c M.

(** * Layout of the heap *)
(** A block: its address, size, the address of its type descriptor (the tag), and the pointer offsets the descriptor lists. *)
Record blk := { ba : Z; bsz : Z; btag : Z; bofs : list Z }.
Definition ptr (b : blk) : Z := ba b + 8.
Record chunk := { ca : Z; ce : Z; cb : list blk }.
(** The blocks [bs] fill [a, e) without gaps. *)
Fixpoint tiles (a : Z) (bs : list blk) (e : Z) : Prop :=
  match bs with [] => a = e | b :: r => ba b = a /\ (exists k, 1 <= k /\ bsz b = 32 * k) /\ tiles (a + bsz b) r e end.
(** Chunks in ascending order, apart from each other and from address 0; a chunk is a header of three words and its blocks. *)
Fixpoint placed (lo : Z) (L : list chunk) : Prop :=
  match L with [] => True | c :: r => lo <= ca c /\ 0 < ca c /\ (exists k, ca c = 16 * k) /\ tiles (ca c + 24) (cb c) (ce c) /\ placed (ce c) r end.
(** The linked list of chunks. *)
Fixpoint chained (m : mem) (h : Z) (L : list chunk) : Prop :=
  match L with [] => h = 0 | c :: r => h = ca c /\ m (ca c + 8) = Some (ce c) /\ exists nx, m (ca c) = Some nx /\ chained m nx r end.
Definition inside (L : list chunk) (a : Z) : Prop := exists c, In c L /\ ca c <= a < ce c.
Definition allmapped (m : mem) (L : list chunk) : Prop := forall a, inside L a -> (exists k, a = 8 * k) -> m a <> None.
Definition blocks (L : list chunk) : list blk := flat_map cb L.
(** Consecutive words. *)
Fixpoint words (m : mem) (a : Z) (ws : list Z) : Prop := match ws with [] => True | w :: r => m a = Some w /\ words m (a + 8) r end.
(** The descriptor of a block: size, offsets, sentinel. *)
Definition table (b : blk) : list Z := bsz b :: bofs b ++ [- 8 * (zlen (bofs b) + 1)].
(** A block is well formed: its pointer fields are words inside the block, and the descriptor lies outside the heap (a record type) or at the
    end of the block, after the fields (an array, or a free block). *)
Record wfb (L : list chunk) (b : blk) : Prop := {
  wf_even : Z.odd (btag b) = false;
  wf_nd : NoDup (bofs b);
  wf_ofs : forall o, In o (bofs b) -> 0 <= o /\ ptr b + o + 8 <= ba b + bsz b /\ exists k, o = 8 * k;
  wf_tab : (forall k, 0 <= k <= zlen (bofs b) + 1 -> ~ inside L (btag b + 8 * k)) \/
           (ptr b <= btag b /\ btag b + 8 * (zlen (bofs b) + 2) <= ba b + bsz b /\ forall o, In o (bofs b) -> ptr b + o + 8 <= btag b)
}.
Definition val (m : mem) (a : Z) : Z := match m a with Some v => v | None => 0 end.
Definition blk_at (L : list chunk) (x : Z) : option blk := find (fun b => ptr b =? x) (blocks L).
Definition graph_of (m : mem) (L : list chunk) : graph :=
  {| objs := map ptr (blocks L);
     desc := fun x => match blk_at L x with Some b => btag b | None => 0 end;
     flds := fun x => match blk_at L x with Some b => map (fun o => (o, val m (x + o))) (bofs b) | None => [] end |}.
(** The state of a heap with the objects M marked. *)
Record heapok (m : mem) (h : Z) (L : list chunk) (M : list Z) : Prop := {
  ho_placed : placed 1 L;
  ho_chain : chained m h L;
  ho_map : allmapped m L;
  ho_wf : forall b, In b (blocks L) -> wfb L b;
  ho_tab : forall b, In b (blocks L) -> words m (btag b) (table b);
  ho_head : forall b, In b (blocks L) -> m (ba b) = Some (btag b + if isin (ptr b) M then 1 else 0);
  ho_fld : forall b o, In b (blocks L) -> In o (bofs b) -> val m (ptr b + o) = 0 \/ In (val m (ptr b + o)) (map ptr (blocks L))
}.

(** * Free lists *)
(** A linked list of free blocks, through their fourth word. *)
Fixpoint linked (m : mem) (h : Z) (l : list Z) : Prop :=
  match l with [] => h = 0 | a :: r => h = a /\ a <> 0 /\ exists nx, m (a + 24) = Some nx /\ linked m nx r end.
(** Blocks of 1 to 8 units have a list each; list 9 has all larger ones. *)
Definition cls (size : Z) : Z := if size / 32 <? 9 then size / 32 else 9.
Record lists (m : mem) (fl : list Z) (bg : Z) (ls : Z -> list Z) : Prop := {
  li_len : zlen fl = 10;
  li_sent : ix fl 9 <> 0;
  li_small : forall i, 1 <= i <= 8 -> linked m (ix fl i) (ls i);
  li_big : linked m bg (ls 9)
}.
Definition freeb (st fs : Z) : blk := {| ba := st; bsz := fs; btag := st + 8; bofs := [] |}.

(** * The heap between two operations *)
(** [ls i] is free list i.  Listed blocks are free blocks of the right size, listed once; the other blocks do not point to listed ones; all
    addresses lie within the recorded limits. *)
Definition free (ls : Z -> list Z) (a : Z) : Prop := exists i, 1 <= i <= 9 /\ In a (ls i).
Record hinv (s : hst) (L : list chunk) (ls : Z -> list Z) : Prop := {
  hi_ok : heapok (hm s) (heap s) L [];
  hi_ls : lists (hm s) (fl s) (big s) ls;
  hi_fr : forall i a, 1 <= i <= 9 -> In a (ls i) -> exists b, In b (blocks L) /\ ba b = a /\ btag b = a + 8 /\ bofs b = [] /\ (i < 9 -> bsz b = 32 * i);
  hi_nd : forall i, 1 <= i <= 9 -> NoDup (ls i);
  hi_dj : forall i j a, 1 <= i <= 9 -> 1 <= j <= 9 -> In a (ls i) -> In a (ls j) -> i = j;
  hi_live : forall b o, In b (blocks L) -> In o (bofs b) -> val (hm s) (ptr b + o) <> 0 -> ~ free ls (val (hm s) (ptr b + o) - 8);
  hi_rng : forall b, In b (blocks L) -> hmin s <= ptr b /\ ba b + bsz b <= hmax s;
  hi_ne : L <> [];
  hi_exp : exists k, 1 <= k /\ hexp s = 32 * k;
  hi_size : exists k, hsize s = 32 * k
}.
(** A type descriptor for objects of [bs] bytes with pointers at the offsets [ofs], outside the heap. *)
Record tdesc (m : mem) (L : list chunk) (tag bs : Z) (ofs : list Z) : Prop := {
  td_words : words m tag (bs :: ofs ++ [- 8 * (zlen ofs + 1)]);
  td_even : Z.odd tag = false;
  td_out : forall k, 0 <= k <= zlen ofs + 1 -> ~ inside L (tag + 8 * k);
  td_nd : NoDup ofs;
  td_ofs : forall o, In o ofs -> 0 <= o /\ o + 16 <= bs /\ exists k, o = 8 * k;
  td_size : exists k, 1 <= k /\ bs = 32 * k
}.
(** The heap layout with block b replaced by the blocks [new]. *)
Definition recut (L : list chunk) (b : blk) (new : list blk) : list chunk :=
  map (fun c => {| ca := ca c; ce := ce c; cb := flat_map (fun d => if ba d =? ba b then new else [d]) (cb c) |}) L.
(** The operating system hands out memory that is not in use, at addresses divisible by 16. *)
Definition honest (os : oracle) : Prop :=
  forall t m size c junk, os t m size = Some (c, junk) -> 0 < c /\ (exists k, c = 16 * k) /\ forall a, c <= a < c + size -> m a = None.

(** * Allocation and collection *)
(** What a collection does to a heap when M is the set of marked objects. *)
Record collected (s : hst) (L : list chunk) (M : list Z) (s' : hst) (L' : list chunk) (ls' : Z -> list Z) : Prop := {
  co_inv : hinv s' L' ls';
  co_keep : forall b, In b (blocks L) -> In (ptr b) M -> In b (blocks L') /\ ~ free ls' (ba b) /\ forall a, ba b <= a < ba b + bsz b -> hm s' a = hm s a;
  co_only : forall b, In b (blocks L') -> (In b (blocks L) /\ In (ptr b) M) \/ free ls' (ba b);
  co_ins : forall a, inside L' a <-> inside L a;
  co_out : forall a, ~ inside L a -> hm s' a = hm s a;
  co_alloc : allocd s' = fold_right (fun b n => (if isin (ptr b) M then bsz b else 0) + n) 0 (blocks L);
  co_size : hsize s' = hsize s /\ hexp s' = hexp s /\ tick s' = tick s
}.
(** What is alive: reachable from a root, from a block some word of the stack points into, or from the object of a finalizer. *)
Definition root_of (L : list chunk) (roots ws : list Z) (q : Z) : Prop := In q roots \/ exists b w, In b (blocks L) /\ In w ws /\ ptr b <= w < ba b + bsz b /\ q = ptr b.
(** What must survive. *)
Definition alive (s : hst) (L : list chunk) (roots ws : list Z) (fs : list finnode) (b : blk) : Prop :=
  exists q, (root_of L roots ws q \/ exists n, In n fs /\ q = fobj n) /\ reach (graph_of (hm s) L) q (ptr b).
(** How a heap changes for its users: kept blocks stay as they are; what lies outside the heap and is mapped stays as it is, outside. *)
Record evolves (keep : blk -> Prop) (s : hst) (L : list chunk) (ls : Z -> list Z) (s' : hst) (L' : list chunk) (ls' : Z -> list Z) : Prop := {
  ev_inv : hinv s' L' ls';
  ev_keep : forall b, In b (blocks L) -> ~ free ls (ba b) -> keep b -> In b (blocks L') /\ ~ free ls' (ba b) /\ forall a, ba b <= a < ba b + bsz b -> (exists j, a = 8 * j) -> hm s' a = hm s a;
  ev_out : forall a, hm s a <> None -> ~ inside L a -> hm s' a = hm s a /\ ~ inside L' a
}.
(** A new block that no kept block overlaps. *)
Record fresh (keep : blk -> Prop) (L : list chunk) (ls : Z -> list Z) (s' : hst) (L' : list chunk) (ls' : Z -> list Z) (nb : blk) : Prop := {
  fr_in : In nb (blocks L');
  fr_live : ~ free ls' (ba nb);
  fr_zero : forall a, ba nb < a < ba nb + bsz nb -> (exists j, a = 8 * j) -> hm s' a = Some 0;
  fr_apart : forall b, In b (blocks L) -> ~ free ls (ba b) -> keep b -> ba b + bsz b <= ba nb \/ ba nb + bsz nb <= ba b
}.
Definition recb (new bs tag : Z) (ofs : list Z) : blk := {| ba := new - 8; bsz := bs; btag := tag; bofs := ofs |}.

