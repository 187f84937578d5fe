(** The storage manager: src/runtime/Heap.Mod (bootstrap/unix-88/Heap.c) and SYSTEM_NEWARR of src/runtime/SYSTEM.c.
    Addresses are 8 bytes wide (SZA = 8, Unit = 32, ldUnit = 5).  Memory is a partial map from word addresses to words; an access to an
    unmapped address is undefined behaviour, and so is a misaligned access because only aligned addresses are ever mapped.
    Words are read as unsigned integers except pointer offsets, which are signed; address arithmetic does not wrap, because all mapped
    addresses are below 2^62. *)
From Verif Require Import Base ArrZ.

Definition mem := Z -> option Z.
(** SYSTEM.GET and SYSTEM.PUT of one word (SYSTEM.h 201-202: __GET, __PUT). *)
Definition get (m : mem) (a : Z) : res Z := match m a with Some v => Ok v | None => UB end.
Definition upd (m : mem) (a v : Z) : mem := fun b => if b =? a then Some v else m b.
Definition put (m : mem) (a v : Z) : res mem := match m a with Some _ => Ok (upd m a v) | None => UB end.

(** Heap.Mod 351-387 [Mark(q)]: the LOOP, entered with the Deutsch-Schorr-Waite back pointer [p]. *)
Fixpoint mark_loop (fuel : nat) (m : mem) (p q tag : Z) : res mem :=
  match fuel with
  | O => Fuel
  | S f =>
      let* offset := get m tag in
      if offset <? 0 then
        let* m := put m (q - 8) (tag + offset + 1) in
        if p =? 0 then Ok m
        else
          let n := q in let q := p in
          let* tag := get m (q - 8) in let tag := tag - 1 in
          let* offset := get m tag in let fld := q + offset in
          let* p := get m fld in
          let* m := put m fld n in
          mark_loop f m p q (tag + 8)
      else
        let fld := q + offset in
        let* n := get m fld in
        if n =? 0 then mark_loop f m p q (tag + 8)
        else
          let* tagbits := get m (n - 8) in
          if Z.odd tagbits then mark_loop f m p q (tag + 8)
          else
            let* m := put m (n - 8) (tagbits + 1) in
            let* m := put m (q - 8) (tag + 1) in
            let* m := put m fld p in
            mark_loop f m q n (tagbits + 8)
  end.
Definition Mark (fuel : nat) (m : mem) (q : Z) : res mem :=
  if q =? 0 then Ok m
  else
    let* tagbits := get m (q - 8) in
    if Z.odd tagbits then Ok m
    else let* m := put m (q - 8) (tagbits + 1) in mark_loop fuel m 0 q (tagbits + 8).

(** The module variables (Heap.Mod 72-99).  [fl] is freeList[0..9]; [tick] counts the requests made to the operating system. *)
Record hst := { hm : mem; fl : list Z; big : Z; allocd : Z; heap : Z; hmin : Z; hmax : Z; hsize : Z; hexp : Z; tick : nat }.

(** Heap.Mod 403-417 and 427-436, the same code twice: put the pending run of free blocks that ends at adr on its list. *)
Definition collect (adr freesize : Z) (x : mem * list Z * Z) : res (mem * list Z * Z) :=
  let '(m, fl, big) := x in
  if freesize =? 0 then Ok (m, fl, big)
  else
    let start := adr - freesize in
    let* m := put m start (start + 8) in
    let* m := put m (start + 8) freesize in
    let* m := put m (start + 16) (-8) in
    let i := Z.shiftr freesize 5 in
    if i <? 9 then
      let* h := getA fl i in
      let* m := put m (start + 24) h in
      let* fl := setA fl i start in Ok (m, fl, big)
    else
      let* m := put m (start + 24) big in Ok (m, fl, start).
(** Heap.Mod 400-426: the blocks of one chunk; returns freesize and the final adr as well. *)
Fixpoint scan_blocks (fuel : nat) (adr end_ freesize allocated : Z) (x : mem * list Z * Z) : res (Z * Z * Z * (mem * list Z * Z)) :=
  match fuel with
  | O => Fuel
  | S f =>
      if adr <? end_ then
        let* tag := get (fst (fst x)) adr in
        if Z.odd tag then
          let* x := collect adr freesize x in
          let '(m, fl, big) := x in
          let tag := tag - 1 in
          let* m := put m adr tag in
          let* size := get m tag in
          scan_blocks f (adr + size) end_ 0 (allocated + size) (m, fl, big)
        else
          let* size := get (fst (fst x)) tag in
          scan_blocks f (adr + size) end_ (freesize + size) allocated x
      else Ok (adr, freesize, allocated, x)
  end.
(** Heap.Mod 398-439: the chunks. *)
Fixpoint scan_chunks (fuel : nat) (chnk allocated : Z) (x : mem * list Z * Z) : res (Z * (mem * list Z * Z)) :=
  match fuel with
  | O => Fuel
  | S f =>
      if chnk =? 0 then Ok (allocated, x)
      else
        let* end_ := get (fst (fst x)) (chnk + 8) in
        let* r := scan_blocks f (chnk + 24) end_ 0 allocated x in
        let '(adr, freesize, allocated, x) := r in
        let* x := collect adr freesize x in
        let* chnk := get (fst (fst x)) chnk in
        scan_chunks f chnk allocated x
  end.
(** Heap.Mod 394-440 [Scan].  freeList[0] and the sentinel freeList[9] are not touched. *)
Definition Scan (fuel : nat) (s : hst) : res hst :=
  let fl0 := nth 0 (fl s) 0 :: repeat 0 8 ++ skipn 9 (fl s) in
  let* r := scan_chunks fuel (heap s) 0 (hm s, fl0, 0) in
  let '(allocated, (m, fl, big)) := r in
  Ok {| hm := m; fl := fl; big := big; allocd := allocated; heap := heap s; hmin := hmin s; hmax := hmax s; hsize := hsize s; hexp := hexp s; tick := tick s |}.

(** Heap.Mod 442-451 [Sift(l, r, a)]; the words are compared as unsigned numbers. *)
Fixpoint sift_loop (fuel : nat) (i j r x : Z) (a : list Z) : res (list Z) :=
  match fuel with
  | O => Fuel
  | S f =>
      let i := j in let j := 2 * j + 1 in
      let* j := (if j <? r then let* u := getA a j in let* v := getA a (j + 1) in Ok (if u <? v then j + 1 else j) else Ok j) in
      let* stop := (if j >? r then Ok true else let* u := getA a j in Ok (u <=? x)) in
      if stop then setA a i x
      else let* u := getA a j in let* a := setA a i u in sift_loop f i j r x a
  end.
Definition Sift (fuel : nat) (l r : Z) (a : list Z) : res (list Z) :=
  let* x := getA a l in sift_loop fuel l l r x a.
(** Heap.Mod 453-458 [HeapSort(n, a)]. *)
Fixpoint build_loop (fuel : nat) (l r : Z) (a : list Z) : res (list Z) :=
  match fuel with
  | O => Fuel
  | S f => if l >? 0 then let l := l - 1 in let* a := Sift f l r a in build_loop f l r a else Ok a
  end.
Fixpoint sort_loop (fuel : nat) (r : Z) (a : list Z) : res (list Z) :=
  match fuel with
  | O => Fuel
  | S f =>
      if r >? 0 then
        let* x := getA a 0 in let* y := getA a r in
        let* a := setA a 0 y in let* a := setA a r x in
        let r := r - 1 in
        let* a := Sift f 0 r a in sort_loop f r a
      else Ok a
  end.
Definition HeapSort (fuel : nat) (n : Z) (a : list Z) : res (list Z) :=
  let* a := build_loop fuel (n / 2) (n - 1) a in sort_loop fuel (n - 1) a.

(** Heap.Mod 460-482 [MarkCandidates].  The candidates cand[i..n-1] are a list; RETURN at i = n is the empty list. *)
Fixpoint skip_below (ptr : Z) (cs : list Z) : list Z :=
  match cs with c :: r => if c <? ptr then skip_below ptr r else cs | [] => [] end.
Fixpoint mc_blocks (fuel : nat) (m : mem) (adr end_ : Z) (cs : list Z) : res (mem * list Z) :=
  match fuel with
  | O => Fuel
  | S f =>
      if adr <? end_ then
        let* tag := get m adr in
        if Z.odd tag then
          let* size := get m (tag - 1) in
          let adr := adr + size in
          match skip_below (adr + 8) cs with
          | [] => Ok (m, [])
          | c :: r => mc_blocks f m (if end_ <=? c then end_ else adr) end_ (c :: r)
          end
        else
          let* size := get m tag in
          let ptr := adr + 8 in
          let adr := adr + size in
          match skip_below ptr cs with
          | [] => Ok (m, [])
          | c :: r =>
              let* m := (if c <? adr then Mark f m ptr else Ok m) in
              mc_blocks f m (if end_ <=? c then end_ else adr) end_ (c :: r)
          end
      else Ok (m, cs)
  end.
Fixpoint mc_chunks (fuel : nat) (m : mem) (chnk : Z) (cs : list Z) : res mem :=
  match fuel with
  | O => Fuel
  | S f =>
      if chnk =? 0 then Ok m
      else
        let* end_ := get m (chnk + 8) in
        let* (m, cs) := mc_blocks f m (chnk + 24) end_ cs in
        match cs with [] => Ok m | _ => let* chnk := get m chnk in mc_chunks f m chnk cs end
  end.
Definition MarkCandidates (fuel : nat) (heap : Z) (m : mem) (cs : list Z) : res mem := mc_chunks fuel m heap cs.

(** Heap.Mod 524-551 [MarkStack]: [ws] are the words found on the stack.  The array holds [cap] (10000) candidates; a full array is
    processed and emptied.  Reading the stack itself is not modelled. *)
Definition flush (fuel : nat) (heap : Z) (m : mem) (cand : list Z) : res mem :=
  let* a := HeapSort fuel (zlen cand) cand in MarkCandidates fuel heap m a.
Fixpoint ms_loop (fuel : nat) (cap heap hmin hmax : Z) (m : mem) (cand ws : list Z) : res mem :=
  match ws with
  | [] => if zlen cand >? 0 then flush fuel heap m cand else Ok m
  | p :: ws =>
      if (hmin <=? p) && (p <? hmax) then
        if zlen cand =? cap then let* m := flush fuel heap m cand in ms_loop fuel cap heap hmin hmax m [p] ws
        else ms_loop fuel cap heap hmin hmax m (cand ++ [p]) ws
      else ms_loop fuel cap heap hmin hmax m cand ws
  end.
Definition MarkStack (fuel : nat) (s : hst) (ws : list Z) : res mem := ms_loop fuel 10000 (heap s) (hmin s) (hmax s) (hm s) [] ws.

(** The list of finalization candidates (Heap.Mod 62-68, 92): object, finalizer, marked.  The nodes are heap objects reachable from the
    module variable fin; here they are a list apart from the heap. *)
Record finnode := { fobj : Z; ffin : Z; fmarked : bool }.
(** Heap.Mod 484-495 [CheckFin]. *)
Fixpoint CheckFin (fuel : nat) (m : mem) (fs : list finnode) : res (mem * list finnode) :=
  match fs with
  | [] => Ok (m, [])
  | n :: r =>
      let* tag := get m (fobj n - 8) in
      let* m := (if Z.odd tag then Ok m else Mark fuel m (fobj n)) in
      let* (m, r) := CheckFin fuel m r in
      Ok (m, {| fobj := fobj n; ffin := ffin n; fmarked := Z.odd tag |} :: r)
  end.
(** Heap.Mod 594-600 [RegisterFinalizer]. *)
Definition RegisterFinalizer (obj f : Z) (fs : list finnode) : list finnode := {| fobj := obj; ffin := f; fmarked := true |} :: fs.
(** Heap.Mod 497-510 [Finalize].  The list fin is [rev pre ++ rest]; n is the head of [rest], prev the head of [pre] or NIL.  [push calls] are the
    registrations (object, finalizer) made by the finalizer called last, when [calls] are the calls so far, latest first; that finalizer
    is taken not to start a collection.  When prev = NIL the loop goes on with fin, new nodes included (line 505). *)
Definition pushed (l : list (Z * Z)) (fs : list finnode) : list finnode := fold_left (fun fs r => RegisterFinalizer (fst r) (snd r) fs) l fs.
Fixpoint fin_loop (fuel : nat) (push : list (Z * Z) -> list (Z * Z)) (pre rest : list finnode) (calls : list (Z * Z)) : res (list finnode * list (Z * Z)) :=
  match fuel with
  | O => Fuel
  | S f =>
      match rest with
      | [] => Ok (rev pre, calls)
      | n :: r =>
          if negb (fmarked n) then
            let calls := (fobj n, ffin n) :: calls in
            match pre with
            | [] => fin_loop f push [] (pushed (push calls) r) calls
            | _ :: _ => fin_loop f push (rev (pushed (push calls) (rev pre))) r calls
            end
          else fin_loop f push (n :: pre) r calls
      end
  end.
Definition Finalize (fuel : nat) (push : list (Z * Z) -> list (Z * Z)) (fs : list finnode) (calls : list (Z * Z)) : res (list finnode * list (Z * Z)) :=
  fin_loop fuel push [] fs calls.
(** Heap.Mod 512-519 [FINALL]. *)
Fixpoint FINALL (fuel : nat) (push : list (Z * Z) -> list (Z * Z)) (fs : list finnode) (calls : list (Z * Z)) : res (list finnode * list (Z * Z)) :=
  match fuel with
  | O => Fuel
  | S f =>
      match fs with
      | [] => Ok ([], calls)
      | n :: r => let calls := (fobj n, ffin n) :: calls in FINALL f push (pushed (push calls) r) calls
      end
  end.

Definition setmem (m : mem) (s : hst) : hst :=
  {| hm := m; fl := fl s; big := big s; allocd := allocd s; heap := heap s; hmin := hmin s; hmax := hmax s; hsize := hsize s; hexp := hexp s; tick := tick s |}.
(** Heap.Mod 554-592 [GC(markStack)]: [roots] are the pointers the modules enumerate, [ws] the words of the stack (none if markStack is
    FALSE).  Finalizers are taken not to change the heap. *)
Fixpoint mark_roots (fuel : nat) (m : mem) (roots : list Z) : res mem :=
  match roots with [] => Ok m | q :: r => let* m := Mark fuel m q in mark_roots fuel m r end.
Definition GC (fuel : nat) (push : list (Z * Z) -> list (Z * Z)) (roots ws : list Z) (s : hst) (fs : list finnode) (calls : list (Z * Z)) : res (hst * list finnode * list (Z * Z)) :=
  let* m := mark_roots fuel (hm s) roots in
  let* m := MarkStack fuel (setmem m s) ws in
  let* (m, fs) := CheckFin fuel m fs in
  let* s := Scan fuel (setmem m s) in
  let* (fs, calls) := Finalize fuel push fs calls in
  Ok (s, fs, calls).

(** Platform.OSAllocate: malloc.  [os t m size] answers request number t: no memory, or an address and the initial contents. *)
Definition oracle := nat -> mem -> Z -> option (Z * (Z -> Z)).
Definition mapped (m : mem) (c size : Z) (junk : Z -> Z) : mem :=
  fun a => if (c <=? a) && (a <? c + size) && (a mod 8 =? 0) then Some (junk a) else m a.
(** Heap.Mod 192-211 [NewChunk(blksz)]. *)
Definition NewChunk (os : oracle) (blksz : Z) (s : hst) : res (Z * hst) :=
  match os (tick s) (hm s) (blksz + 24) with
  | None => Ok (0, {| hm := hm s; fl := fl s; big := big s; allocd := allocd s; heap := heap s; hmin := hmin s; hmax := hmax s; hsize := hsize s; hexp := hexp s; tick := S (tick s) |})
  | Some (chnk, junk) =>
      let m := mapped (hm s) chnk (blksz + 24) junk in
      let blk := chnk + 24 in
      let end_ := blk + blksz in
      let* m := put m (chnk + 8) end_ in
      let* m := put m blk (blk + 8) in
      let* m := put m (blk + 8) blksz in
      let* m := put m (blk + 16) (-8) in
      let* m := put m (blk + 24) (big s) in
      Ok (chnk, {| hm := m; fl := fl s; big := blk; allocd := allocd s; heap := heap s;
                   hmin := (if blk + 8 <? hmin s then blk + 8 else hmin s); hmax := (if hmax s <? end_ then end_ else hmax s);
                   hsize := hsize s + blksz; hexp := hexp s; tick := S (tick s) |})
  end.
(** Heap.Mod 223-232: position in the chunk list, which is sorted by address. *)
Fixpoint find_chunk (fuel : nat) (m : mem) (j next chnk : Z) : res (Z * Z) :=
  match fuel with
  | O => Fuel
  | S f => if negb (next =? 0) && (next <? chnk) then let j := next in let* next := get m j in find_chunk f m j next chnk else Ok (j, next)
  end.
(** Heap.Mod 213-241 [ExtendHeap(blksz)]; [firstTry] as in the module variable. *)
Definition ExtendHeap (fuel : nat) (os : oracle) (firstTry : bool) (blksz : Z) (s : hst) : res hst :=
  if negb (blksz mod 32 =? 0) then Trap 0
  else
    let size := if hexp s <? blksz then blksz else hexp s in
    let* (chnk, s) := NewChunk os size s in
    if negb (chnk =? 0) then
      if chnk <? heap s then
        let* m := put (hm s) chnk (heap s) in
        Ok {| hm := m; fl := fl s; big := big s; allocd := allocd s; heap := chnk; hmin := hmin s; hmax := hmax s; hsize := hsize s; hexp := hexp s; tick := tick s |}
      else
        let* next := get (hm s) (heap s) in
        let* (j, next) := find_chunk fuel (hm s) (heap s) next chnk in
        let* m := put (hm s) chnk next in
        let* m := put m j chnk in
        Ok (setmem m s)
    else if negb firstTry then
      Ok {| hm := hm s; fl := fl s; big := big s; allocd := allocd s; heap := heap s; hmin := hmin s; hmax := hmax s; hsize := hsize s; hexp := 32; tick := tick s |}
    else Ok s.

(** Heap.Mod 257-259: the first list that is not empty, from i upwards; the sentinel is at 9. *)
Fixpoint find_list (fuel : nat) (fl : list Z) (i : Z) : res (Z * Z) :=
  match fuel with
  | O => Fuel
  | S f => let* adr := getA fl i in if adr =? 0 then find_list f fl (i + 1) else Ok (i, adr)
  end.
(** Heap.Mod 274-299: first fit among the big blocks. *)
Fixpoint search_big (fuel : nat) (m : mem) (blksz prev adr : Z) : res (option (Z * Z * Z)) :=
  match fuel with
  | O => Fuel
  | S f =>
      if adr =? 0 then Ok None
      else
        let* t := get m (adr + 8) in
        if blksz <=? t then Ok (Some (prev, adr, t))
        else let* next := get m (adr + 24) in search_big f m blksz adr next
  end.
(** Heap.Mod 318-325: clear the block from its fifth word on. *)
Fixpoint clear_loop (fuel : nat) (m : mem) (i end_ : Z) : res mem :=
  match fuel with
  | O => Fuel
  | S f =>
      if i <? end_ then
        let* m := put m i 0 in let* m := put m (i + 8) 0 in let* m := put m (i + 16) 0 in let* m := put m (i + 24) 0 in
        clear_loop f m (i + 32) end_
      else Ok m
  end.
(** Heap.Mod 244-334 [NEWREC(tag)] without lines 278-293: the result is 0 where the code finds nothing free. *)
Definition unlink_small (blksz i0 i adr : Z) (s : hst) : res (Z * mem * list Z) :=
  let m := hm s in
  let* next := get m (adr + 24) in
  let* fl := setA (fl s) i next in
  if negb (i =? i0) then
    let di := i - i0 in let restsize := di * 32 in let end_ := adr + restsize in
    let* m := put m (end_ + 8) blksz in
    let* m := put m (end_ + 16) (-8) in
    let* m := put m end_ (end_ + 8) in
    let* m := put m (adr + 8) restsize in
    let* h := getA fl di in
    let* m := put m (adr + 24) h in
    let* fl := setA fl di adr in
    Ok (adr + restsize, m, fl)
  else Ok (adr, m, fl).
Definition unlink_big (blksz prev adr t : Z) (s : hst) : res (Z * mem * list Z * Z) :=
  let m := hm s in
  let restsize := t - blksz in let end_ := adr + restsize in
  let* m := put m (end_ + 8) blksz in
  let* m := put m (end_ + 16) (-8) in
  let* m := put m end_ (end_ + 8) in
  if 9 * 32 <? restsize then
    let* m := put m (adr + 8) restsize in Ok (adr + restsize, m, fl s, big s)
  else
    let* next := get m (adr + 24) in
    let* (m, bg) := (if prev =? 0 then Ok (m, next) else let* m := put m (prev + 24) next in Ok (m, big s)) in
    if negb (restsize =? 0) then
      let di := restsize / 32 in
      let* m := put m (adr + 8) restsize in
      let* h := getA (fl s) di in
      let* m := put m (adr + 24) h in
      let* fl := setA (fl s) di adr in
      Ok (adr + restsize, m, fl, bg)
    else Ok (adr + restsize, m, fl s, bg).
Definition finish (fuel : nat) (tag blksz adr : Z) (m : mem) (fl : list Z) (big : Z) (s : hst) : res (Z * hst) :=
  let* m := clear_loop fuel m (adr + 32) (adr + blksz) in
  let* m := put m (adr + 24) 0 in
  let* m := put m adr tag in
  let* m := put m (adr + 8) 0 in
  let* m := put m (adr + 16) 0 in
  Ok (adr + 8, {| hm := m; fl := fl; big := big; allocd := allocd s + blksz; heap := heap s; hmin := hmin s; hmax := hmax s; hsize := hsize s; hexp := hexp s; tick := tick s |}).
Definition try_alloc (fuel : nat) (tag : Z) (s : hst) : res (Z * hst) :=
  let* blksz := get (hm s) tag in
  if negb (blksz mod 32 =? 0) then Trap 0
  else
    let i0 := Z.shiftr blksz 5 in
    let* (i, adr) := (if i0 <? 9 then find_list fuel (fl s) i0 else Ok (i0, 0)) in
    if i <? 9 then
      let* r := unlink_small blksz i0 i adr s in
      let '(adr, m, fl) := r in
      finish fuel tag blksz adr m fl (big s) s
    else
      let* o := search_big fuel (hm s) blksz 0 (big s) in
      match o with
      | None => Ok (0, s)
      | Some (prev, adr, t) =>
          let* r := unlink_big blksz prev adr t s in
          let '(adr, m, fl, bg) := r in
          finish fuel tag blksz adr m fl bg s
      end.
(** Heap.Mod 244-334 [NEWREC(tag)] called with firstTry = TRUE. *)
Definition NEWREC (fuel : nat) (os : oracle) (push : list (Z * Z) -> list (Z * Z)) (roots ws : list Z) (tag : Z) (s : hst) (fs : list finnode) (calls : list (Z * Z)) : res (Z * hst * list finnode * list (Z * Z)) :=
  let* (new, s1) := try_alloc fuel tag s in
  if negb (new =? 0) then Ok (new, s1, fs, calls)
  else
    let* blksz := get (hm s) tag in
    let* r := GC fuel push roots ws s fs calls in
    let '(s, fs, calls) := r in
    let blksz := blksz + 32 in
    let t := Z.shiftr (allocd s + blksz) 7 * (5 * 32) in
    let* s := (if hsize s <? t then ExtendHeap fuel os true (t - hsize s) s else Ok s) in
    let* (new, s) := try_alloc fuel tag s in
    if negb (new =? 0) then Ok (new, s, fs, calls)
    else
      let* s := ExtendHeap fuel os false blksz s in
      let* (new, s) := try_alloc fuel tag s in
      Ok (new, s, fs, calls).

(** Heap.Mod 605-633 [InitHeap], for the memory m: the heap is one chunk of heapSize0 = 8000 units.  heapMin = -1 is the greatest address, since
    addresses are compared without sign.  The other variables InitHeap sets are not part of the model. *)
Definition InitHeap (os : oracle) (m : mem) : res hst :=
  let s := {| hm := m; fl := repeat 0 10; big := 0; allocd := 0; heap := 0; hmin := 2 ^ 64 - 1; hmax := 0; hsize := 0; hexp := 8000 * 32; tick := O |} in
  let* (h, s) := NewChunk os (8000 * 32) s in
  let* m := put (hm s) h 0 in
  let* f := setA (fl s) 9 1 in
  Ok {| hm := m; fl := f; big := big s; allocd := allocd s; heap := h; hmin := hmin s; hmax := hmax s; hsize := hsize s; hexp := hexp s; tick := tick s |}.
