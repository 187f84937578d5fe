(** Allocation of arrays. *)
From Verif Require Import Base HeapModel.

(** Heap.Mod 336-349 [NEWBLK(size)].  [sl] is the address of the local variable blksz, which serves as the type tag for NEWREC.  Lock and Unlock
    are left out. *)
Definition NEWBLK (fuel : nat) (os : oracle) (push : list (Z * Z) -> list (Z * Z)) (roots ws : list Z) (sl size : Z) (s : hst) (fs : list finnode) (calls : list (Z * Z)) : res (Z * hst * list finnode * list (Z * Z)) :=
  let blksz := (size + (4 * 8 + 32 - 1)) / 32 * 32 in
  let* m := put (hm s) sl blksz in
  let* q := NEWREC fuel os push roots ws sl (setmem m s) fs calls in
  let '(new, s, fs, calls) := q in
  let tag := new + blksz - 3 * 8 in
  let* m := put (hm s) (tag - 8) 0 in
  let* m := put m tag blksz in
  let* m := put m (tag + 8) (-8) in
  let* m := put m (new - 8) tag in
  Ok (new, setmem m s, fs, calls).

(** SYSTEM.c 94-152 [SYSTEM_NEWARR].  Addresses have 64 bits.  The element type has no pointers, is a pointer, or is a record with pointers
    whose descriptor is at [typ]. *)
Inductive elem := NoPtr | Ptr | Rec (typ : Z).
(** Lines 99-103: the number of elements. *)
Fixpoint count_elems (dims : list Z) (n : Z) : res Z :=
  match dims with
  | [] => Ok n
  | d :: r => let* n := chk 64 (n * d) in if n <=? 0 then Trap (-20) else count_elems r n
  end.
(** Line 119: [while (n <= nofelems) {*p = n*sizeof(ADDRESS); p++; n++;}] *)
Fixpoint ptr_loop (c : nat) (m : mem) (p n : Z) : res (mem * Z) :=
  match c with O => Ok (m, p) | S c => let* m := put m p (n * 8) in ptr_loop c m (p + 8) (n + 1) end.
(** Line 126: [while (ptab[nofptrs] >= 0) {nofptrs++;}] *)
Fixpoint count_ptrs (fuel : nat) (m : mem) (ptab nofptrs : Z) : res Z :=
  match fuel with
  | O => Fuel
  | S f => let* o := get m (ptab + 8 * nofptrs) in if 0 <=? o then count_ptrs f m ptab (nofptrs + 1) else Ok nofptrs
  end.
(** Line 133: [while (i < nofptrs) {*p = off + ptab[i]; p++; i++;}] *)
Fixpoint elem_loop (c : nat) (m : mem) (ptab off p i : Z) : res (mem * Z) :=
  match c with O => Ok (m, p) | S c => let* o := get m (ptab + 8 * i) in let* m := put m p (off + o) in elem_loop c m ptab off (p + 8) (i + 1) end.
(** Lines 132-135. *)
Fixpoint rec_loop (c : nat) (m : mem) (ptab nofptrs elemsz off p : Z) : res (mem * Z) :=
  match c with O => Ok (m, p) | S c => let* (m, p) := elem_loop (Z.to_nat nofptrs) m ptab off p 0 in rec_loop c m ptab nofptrs elemsz (off + elemsz) p end.
(** Line 144: the vector of lengths. *)
Fixpoint len_loop (dims : list Z) (m : mem) (p : Z) : res mem :=
  match dims with [] => Ok m | d :: r => let* m := put m p d in len_loop r m (p + 8) end.
(** The offset of the data, lines 105-109. *)
Definition data_offset (elemalgn nofdyn : Z) : Z :=
  let dataoff := nofdyn * 8 in
  if 8 <? elemalgn then let n := dataoff mod elemalgn in if negb (n =? 0) then dataoff + (elemalgn - n) else dataoff else dataoff.
Definition NEWARR (fuel : nat) (os : oracle) (push : list (Z * Z) -> list (Z * Z)) (roots ws : list Z) (sl : Z) (e : elem) (elemsz elemalgn nofdyn : Z) (dims : list Z)
    (s : hst) (fs : list finnode) (calls : list (Z * Z)) : res (Z * hst * list finnode * list (Z * Z)) :=
  let* nofelems := count_elems dims 1 in
  let dataoff := data_offset elemalgn nofdyn in
  let* size := chk 64 (dataoff + nofelems * elemsz) in
  let* r := match e with
    | NoPtr => NEWBLK fuel os push roots ws sl size s fs calls
    | Ptr =>
        let* q := NEWBLK fuel os push roots ws sl (size + nofelems * 8) s fs calls in
        let '(x, s, fs, calls) := q in
        let* p := get (hm s) (x - 8) in
        let* v := get (hm s) p in
        let* m := put (hm s) (p - 8 * nofelems) v in
        let p := p - 8 * (nofelems - 1) in
        let* (m, p) := ptr_loop (Z.to_nat nofelems) m p 1 in
        let* m := put m p (- (nofelems + 1) * 8) in
        let* t := get m (x - 8) in
        let* m := put m (x - 8) (t - nofelems * 8) in
        Ok (x, setmem m s, fs, calls)
    | Rec typ =>
        let ptab := typ + 8 in
        let* nofptrs := count_ptrs fuel (hm s) ptab 0 in
        let nptr := nofelems * nofptrs in
        let* q := NEWBLK fuel os push roots ws sl (size + nptr * 8) s fs calls in
        let '(x, s, fs, calls) := q in
        let* p := get (hm s) (x - 8) in
        let* v := get (hm s) p in
        let* m := put (hm s) (p - 8 * nptr) v in
        let p := p - 8 * (nptr - 1) in
        let* (m, p) := rec_loop (Z.to_nat nofelems) m ptab nofptrs elemsz dataoff p in
        let* m := put m p (- (nptr + 1) * 8) in
        let* t := get m (x - 8) in
        let* m := put m (x - 8) (t - nptr * 8) in
        Ok (x, setmem m s, fs, calls)
    end in
  let '(x, s, fs, calls) := r in
  let* m := len_loop (firstn (Z.to_nat nofdyn) dims) (hm s) x in
  Ok (x, setmem m s, fs, calls).
