(** Texts, buffers, writers and readers: src/runtime/Texts.Mod 20-110, 131-206, 238-355, 497-541,
    778-800.

    Runs are heap cells named by numbers.  The fields of [RunDesc] are kept in separate maps: [nx]
    ([next]), [pv] ([prev]) and [bd] (everything else), so that an assignment to one field is an
    update of one map.  Simplifications: LONGINT lengths are unbounded integers; fonts are their
    names ([None] = NIL), which is what the code compares; an element is an identity, its handler is
    assumed to copy it as [CopyElem] does; a writer's rider always stands at the end of its file,
    because only [Write] moves it. *)
From Verif Require Import Base.

Definition loc := nat.
Bind Scope nat_scope with loc.
Definition font := option (list Z).
(** What a run is: the head of a ring, a piece of a file, or an element with its base text. *)
Inductive kind :=
  | Head
  | Piece (file : nat) (org : Z) (ascii : bool)
  | Elem (id : nat) (base : option nat).
Record body := { len : Z; fnt : font; col : Z; voff : Z; kd : kind }.
Record mem := { nx : loc -> loc; pv : loc -> loc; bd : loc -> body; nxt : loc }.
Record text := { tlen : Z; thead : loc; tcache : loc; tcorg : Z }.
Record buffer := { blen : Z; bhead : loc }.
Record writer := { wbuf : nat; wfnt : font; wcol : Z; wvoff : Z; wfile : nat }.
Definition MAXL : Z := 2147483647.

Definition upd {A} (f : nat -> A) (a : nat) (x : A) : nat -> A := fun b => if Nat.eqb b a then x else f b.
Definition set_nx (m : mem) (a x : loc) : mem := {| nx := upd (nx m) a x; pv := pv m; bd := bd m; nxt := nxt m |}.
Definition set_pv (m : mem) (a x : loc) : mem := {| nx := nx m; pv := upd (pv m) a x; bd := bd m; nxt := nxt m |}.
Definition set_bd (m : mem) (a : loc) (b : body) : mem := {| nx := nx m; pv := pv m; bd := upd (bd m) a b; nxt := nxt m |}.
Definition set_len (b : body) (n : Z) : body := {| len := n; fnt := fnt b; col := col b; voff := voff b; kd := kd b |}.
Definition set_kd (b : body) (k : kind) : body := {| len := len b; fnt := fnt b; col := col b; voff := voff b; kd := k |}.
(** NEW: a fresh cell with the given body; its links are set by the caller. *)
Definition new (m : mem) (b : body) : mem * loc :=
  ({| nx := nx m; pv := pv m; bd := upd (bd m) (nxt m) b; nxt := S (nxt m) |}, nxt m).
Definition set_cache (t : text) (c : loc) (o : Z) : text := {| tlen := tlen t; thead := thead t; tcache := c; tcorg := o |}.
Definition set_tlen (t : text) (n : Z) : text := {| tlen := n; thead := thead t; tcache := tcache t; tcorg := tcorg t |}.
Definition lenof (m : mem) (u : loc) : Z := len (bd m u).

(** ** Run primitives *)
(** Texts.Mod 136-140: the two loops of [Find]. *)
Fixpoint forward (fuel : nat) (m : mem) (v : loc) (k : Z) : res (loc * Z) :=
  if k >=? lenof m v then
    match fuel with O => Fuel | S n => forward n m (nx m v) (k - lenof m v) end
  else Ok (v, k).
Fixpoint backward (fuel : nat) (m : mem) (v : loc) (k : Z) : res (loc * Z) :=
  if k <? 0 then
    match fuel with O => Fuel | S n => backward n m (pv m v) (k + lenof m (pv m v)) end
  else Ok (v, k).
(** Texts.Mod 131-143.  The result is the text with its new cache, the clipped position, the run,
    its origin and the offset in it. *)
Definition Find (m : mem) (t : text) (pos : Z) : res (text * Z * (loc * Z * Z)) :=
  if pos >=? tlen t then
    Ok (set_cache t (thead t) 0, tlen t, (thead t, tlen t, 0))
  else
    let v := nx m (tcache t) in
    let k := pos - tcorg t in
    let* (u, k) := if pos >=? tcorg t then forward (S (nxt m)) m v k else backward (S (nxt m)) m v k in
    Ok (set_cache t (pv m u) (pos - k), pos, (u, pos - k, k)).

(** Texts.Mod 145-154.  The result is the memory, [u] and [un]. *)
Definition Split (m : mem) (off : Z) (u : loc) : res (mem * loc * loc) :=
  if off =? 0 then Ok (m, pv m u, u)
  else if off >=? lenof m u then Ok (m, u, nx m u)
  else
    match kd (bd m u) with
    | Piece f o a =>
        let b := set_kd (set_len (bd m u) (lenof m u - off)) (Piece f (o + off) a) in
        let '(m, p) := new m b in
        let m := set_bd m u (set_len (bd m u) (lenof m u - lenof m p)) in
        let m := set_pv m p u in
        let m := set_nx m p (nx m u) in
        let m := set_pv m (nx m p) p in
        let m := set_nx m u p in
        Ok (m, u, p)
    | _ => Trap (-5)
    end.

(** Texts.Mod 156-169.  The result is the memory, the text and [v]. *)
Definition same_name (a b : font) : res bool :=
  match a, b with
  | Some x, Some y => Ok (if list_eq_dec Z.eq_dec x y then true else false)
  | _, _ => Trap (-1)
  end.
Definition Merge (m : mem) (t : text) (u v : loc) : res (mem * text * loc) :=
  match kd (bd m u), kd (bd m v) with
  | Piece fu ou au, Piece fv ov av =>
      let* sn := same_name (fnt (bd m u)) (fnt (bd m v)) in
      if sn && (col (bd m u) =? col (bd m v)) && (voff (bd m u) =? voff (bd m v)) && Bool.eqb au av then
        if Nat.eqb fu fv && (ou + lenof m u =? ov) then
          let t := if Nat.eqb (tcache t) u then set_cache t (tcache t) (tcorg t + lenof m v)
                   else if Nat.eqb (tcache t) v then set_cache t (thead t) 0 else t in
          Ok (set_bd m u (set_len (bd m u) (lenof m u + lenof m v)), t, nx m v)
        else Ok (m, t, v)
      else Ok (m, t, v)
  | _, _ => Ok (m, t, v)
  end.

(** Texts.Mod 171-181. *)
Fixpoint rebase (fuel : nat) (m : mem) (v un : loc) (base : option nat) : res mem :=
  match fuel with
  | O => Fuel
  | S n =>
      let m := match kd (bd m v) with Elem i _ => set_bd m v (set_kd (bd m v) (Elem i base)) | _ => m end in
      if Nat.eqb (nx m v) un then Ok m else rebase n m (nx m v) un base
  end.
Definition Splice (m : mem) (un v w : loc) (base : option nat) : res mem :=
  if negb (Nat.eqb v (nx m w)) then
    let u := pv m un in
    let m := set_nx m u v in
    let m := set_pv m v u in
    let m := set_pv m un w in
    let m := set_nx m w un in
    rebase (S (nxt m)) m v un base
  else Ok m.

(** Texts.Mod 183-192: a copy of a run.  A copied element belongs to no text. *)
Definition Clone (m : mem) (u : loc) : mem * loc :=
  match kd (bd m u) with
  | Elem i _ => new m (set_kd (bd m u) (Elem i None))
  | _ => new m (bd m u)
  end.

(** ** Buffers *)
Definition headrun (l c : Z) : body := {| len := l; fnt := None; col := c; voff := 0; kd := Head |}.
(** Texts.Mod 239-242. *)
Definition OpenBuf (m : mem) : mem * buffer :=
  let '(m, u) := new m (headrun 0 0) in
  let m := set_nx m u u in
  let m := set_pv m u u in
  (m, {| blen := 0; bhead := u |}).
(** Texts.Mod 244-253. *)
Fixpoint copy_loop (fuel : nat) (m : mem) (u v h : loc) : res (mem * loc) :=
  if Nat.eqb u h then Ok (m, v)
  else match fuel with
       | O => Fuel
       | S n =>
           let '(m, vn) := Clone m u in
           let m := set_nx m v vn in
           let m := set_pv m vn v in
           copy_loop n m (nx m u) vn h
       end.
Definition Copy (m : mem) (SB DB : buffer) : res (mem * buffer) :=
  let* (m, v) := copy_loop (S (nxt m)) m (nx m (bhead SB)) (pv m (bhead DB)) (bhead SB) in
  let m := set_nx m v (bhead DB) in
  let m := set_pv m (bhead DB) v in
  Ok (m, {| blen := blen DB + blen SB; bhead := bhead DB |}).

(** ** Texts *)
(** Texts.Mod 262-277. *)
Definition advance (b : body) (d : Z) : body :=
  match kd b with
  | Piece f o a => set_kd (set_len b (len b - d)) (Piece f (o + d) a)
  | _ => b
  end.
Fixpoint save_loop (fuel : nat) (m : mem) (u v w : loc) (ud : Z) : res (mem * loc * Z) :=
  if Nat.eqb u v then Ok (m, w, ud)
  else match fuel with
       | O => Fuel
       | S n =>
           let '(m, wn) := Clone m u in
           let m := set_bd m wn (advance (bd m wn) ud) in
           let m := set_nx m w wn in
           let m := set_pv m wn w in
           save_loop n m (nx m u) v wn 0
       end.
Definition Save (m : mem) (t : text) (beg end_ : Z) (B : buffer) : res (mem * text * buffer) :=
  let* (tp, r1) := Find m t beg in
  let '(t, beg) := tp in
  let '(u, _, ud) := r1 in
  let* (tp, r2) := Find m t end_ in
  let '(t, end_) := tp in
  let '(v, _, vd) := r2 in
  let* (mw, ud) := save_loop (S (nxt m)) m u v (pv m (bhead B)) ud in
  let '(m, w) := mw in
  let* (m, w) :=
    if vd >? 0 then
      match kd (bd m v) with
      | Piece _ _ _ =>
          let '(m, wn) := Clone m v in
          let m := set_bd m wn (set_len (advance (bd m wn) ud) (vd - ud)) in
          let m := set_nx m w wn in
          let m := set_pv m wn w in
          Ok (m, wn)
      | _ => Trap (-5)
      end
    else Ok (m, w) in
  let m := set_nx m w (bhead B) in
  let m := set_pv m (bhead B) w in
  Ok (m, t, {| blen := blen B + (end_ - beg); bhead := bhead B |}).

(** A notification: the operation and the range. *)
Inductive note := NInsert (b e : Z) | NDelete (b e : Z) | NReplace (b e : Z).
(** The ring is emptied (Texts.Mod 284, 293). *)
Definition emptied (m : mem) (B : buffer) : mem * buffer :=
  let m := set_nx m (bhead B) (bhead B) in
  let m := set_pv m (bhead B) (bhead B) in
  (m, {| blen := 0; bhead := bhead B |}).
(** Texts.Mod 279-286.  [self] is the text's own name, stored as the base of inserted elements. *)
Definition Insert (m : mem) (self : nat) (t : text) (pos : Z) (B : buffer) : res (mem * text * buffer * note) :=
  let* (tp, r) := Find m t pos in
  let '(t, pos) := tp in
  let '(u, _, ud) := r in
  let* (mu, un) := Split m ud u in
  let '(m, u) := mu in
  let n := blen B in
  let v := nx m (bhead B) in
  let* (mt, v) := Merge m t u v in
  let '(m, t) := mt in
  let* m := Splice m un v (pv m (bhead B)) (Some self) in
  let t := set_tlen t (tlen t + n) in
  let '(m, B) := emptied m B in
  Ok (m, t, B, NInsert pos (pos + n)).
(** Texts.Mod 288-294. *)
Definition Append (m : mem) (self : nat) (t : text) (B : buffer) : res (mem * text * buffer * note) :=
  let pos := tlen t in
  let n := blen B in
  let v := nx m (bhead B) in
  let* (mt, v) := Merge m t (pv m (thead t)) v in
  let '(m, t) := mt in
  let* m := Splice m (thead t) v (pv m (bhead B)) (Some self) in
  let t := set_tlen t (tlen t + n) in
  let '(m, B) := emptied m B in
  Ok (m, t, B, NInsert pos (pos + n)).
(** Texts.Mod 296-306.  The result has the buffer [del]. *)
Definition Delete (m : mem) (t : text) (beg end_ : Z) : res (mem * text * buffer * note) :=
  let* (tp, r1) := Find m t beg in
  let '(t, beg) := tp in
  let '(u, _, ud) := r1 in
  let* (mu, un) := Split m ud u in
  let '(m, u) := mu in
  let c := tcache t in
  let co := tcorg t in
  let* (tp, r2) := Find m t end_ in
  let '(t, end_) := tp in
  let '(v, _, vd) := r2 in
  let* (mv, vn) := Split m vd v in
  let '(m, v) := mv in
  let t := set_cache t c co in
  let '(m, D) := OpenBuf m in
  let D := {| blen := end_ - beg; bhead := bhead D |} in
  let* m := Splice m (bhead D) un v None in
  let* (mt, vn) := Merge m t u vn in
  let '(m, t) := mt in
  let m := set_nx m u vn in
  let m := set_pv m vn u in
  let t := set_tlen t (tlen t - (end_ - beg)) in
  Ok (m, t, D, NDelete beg end_).
(** Texts.Mod 308-322.  [sel] is the three bits of the set. *)
Record looks := { lfnt : font; lcol : Z; lvoff : Z; s0 : bool; s1 : bool; s2 : bool }.
Definition repaint (k : looks) (b : body) : body :=
  {| len := len b;
     fnt := if s0 k && (match lfnt k with Some _ => true | None => false end) then lfnt k else fnt b;
     col := if s1 k then lcol k else col b;
     voff := if s2 k then lvoff k else voff b;
     kd := kd b |}.
Fixpoint looks_loop (fuel : nat) (m : mem) (t : text) (k : looks) (u un vn : loc) : res (mem * text * (loc * loc)) :=
  if Nat.eqb un vn then Ok (m, t, (u, un))
  else match fuel with
       | O => Fuel
       | S n =>
           let m := set_bd m un (repaint k (bd m un)) in
           let* (mt, un) := Merge m t u un in
           let '(m, t) := mt in
           if Nat.eqb (nx m u) un then looks_loop n m t k un (nx m un) vn
           else
             let m := set_nx m u un in
             let m := set_pv m un u in
             looks_loop n m t k u un vn
       end.
Definition ChangeLooks (m : mem) (t : text) (beg end_ : Z) (k : looks) : res (mem * text * note) :=
  let* (tp, r1) := Find m t beg in
  let '(t, beg) := tp in
  let '(u, _, ud) := r1 in
  let* (mu, un) := Split m ud u in
  let '(m, u) := mu in
  let c := tcache t in
  let co := tcorg t in
  let* (tp, r2) := Find m t end_ in
  let '(t, end_) := tp in
  let '(v, _, vd) := r2 in
  let* (mv, vn) := Split m vd v in
  let '(m, v) := mv in
  let t := set_cache t c co in
  let* (mt, uu) := looks_loop (S (nxt m)) m t k u un vn in
  let '(m, t) := mt in
  let '(u, un) := uu in
  let* (mt, un) := Merge m t u un in
  let '(m, t) := mt in
  let m := set_nx m u un in
  let m := set_pv m un u in
  Ok (m, t, NReplace beg end_).

(** ** Readers *)
Record reader := {
  reot : bool; rfnt : font; rcol : Z; rvoff : Z; relem : option (nat * option nat);
  rfile : nat; rpos : Z; rrun : loc; rorg : Z; roff : Z }.
Definition reader0 : reader :=
  {| reot := false; rfnt := None; rcol := 0; rvoff := 0; relem := None; rfile := 0; rpos := 0;
     rrun := 0; rorg := 0; roff := 0 |}.
(** Files.Read of one byte: 0X at the end of the file. *)
Definition byte_at (f : list Z) (p : Z) : Z := nth (Z.to_nat p) f 0.
(** Texts.Mod 326-334. *)
Definition OpenReader (m : mem) (t : text) (pos : Z) : res (text * reader) :=
  let pos := if pos >=? tlen t then tlen t else pos in
  let* (tp, r) := Find m t pos in
  let '(t, _) := tp in
  let '(u, org, off) := r in
  let '(f, p) := match kd (bd m u) with Piece f o _ => (f, o + off) | _ => (0%nat, 0) end in
  Ok (t, {| reot := false; rfnt := None; rcol := 0; rvoff := 0; relem := None;
            rfile := f; rpos := p; rrun := u; rorg := org; roff := off |}).
(** Texts.Mod 336-355; ElemChar = 1CX, CR = 0DX. *)
Definition Read (m : mem) (files : nat -> list Z) (R : reader) : reader * Z :=
  let u := rrun R in
  let b := bd m u in
  let off := roff R + 1 in
  let '(ch, el, eot, pos, off) :=
    match kd b with
    | Piece f o a =>
        let ch := byte_at (files (rfile R)) (rpos R) in
        let pos := rpos R + 1 in
        if (ch =? 10) && a then (13, None, reot R, pos, off)
        else if (ch =? 13) && a then
          if byte_at (files (rfile R)) pos =? 10 then (ch, None, reot R, pos + 1, off + 1)
          else (ch, None, reot R, pos, off)
        else (ch, None, reot R, pos, off)
    | Elem i b => (28, Some (i, b), reot R, rpos R, off)
    | Head => (0, None, true, rpos R, off)
    end in
  if off =? len b then
    let u' := nx m u in
    let '(f, p) := match kd (bd m u') with Piece f o _ => (f, o) | _ => (rfile R, pos) end in
    ({| reot := eot; rfnt := fnt b; rcol := col b; rvoff := voff b; relem := el;
        rfile := f; rpos := p; rrun := u'; rorg := rorg R + len b; roff := 0 |}, ch)
  else
    ({| reot := eot; rfnt := fnt b; rcol := col b; rvoff := voff b; relem := el;
        rfile := rfile R; rpos := pos; rrun := u; rorg := rorg R; roff := off |}, ch).

(** ** Writers *)
(** Texts.Mod 517-528.  The result is the memory, the buffer and the contents of the writer's file. *)
Definition Write (m : mem) (W : writer) (B : buffer) (file : list Z) (ch : Z) : res (mem * buffer * list Z) :=
  let file := file ++ [ch] in
  let un := bhead B in
  let u := pv m un in
  let* ext :=
    match kd (bd m u) with
    | Piece f _ a =>
        if Nat.eqb f (wfile W) then
          let* sn := same_name (fnt (bd m u)) (wfnt W) in
          Ok (sn && (col (bd m u) =? wcol W) && (voff (bd m u) =? wvoff W) && negb a)
        else Ok false
    | _ => Ok false
    end in
  let B := {| blen := blen B + 1; bhead := bhead B |} in
  if ext then Ok (set_bd m u (set_len (bd m u) (lenof m u + 1)), B, file)
  else
    let '(m, p) := new m {| len := 1; fnt := wfnt W; col := wcol W; voff := wvoff W;
                            kd := Piece (wfile W) (Z.of_nat (length file) - 1) false |} in
    let m := set_nx m u p in
    let m := set_pv m p u in
    let m := set_nx m p un in
    let m := set_pv m un p in
    Ok (m, B, file).
(** Texts.Mod 530-536, for a new element. *)
Definition WriteElem (m : mem) (W : writer) (B : buffer) (id : nat) : mem * buffer :=
  let '(m, e) := new m {| len := 1; fnt := wfnt W; col := wcol W; voff := wvoff W; kd := Elem id None |} in
  let un := bhead B in
  let u := pv m un in
  let m := set_nx m u e in
  let m := set_pv m e u in
  let m := set_nx m e un in
  let m := set_pv m un e in
  (m, {| blen := blen B + 1; bhead := bhead B |}).

(** Texts.Mod 778-800, for a file that is not in the Oberon text format ([f] is the file's number,
    [n] its length); FontsDefault is the font named by [dflt], Displaywhite = 15. *)
Definition dflt : font := Some [83; 121; 110; 116; 97; 120; 49; 48; 46; 83; 99; 110; 46; 70; 110; 116].
Definition Open (m : mem) (f : nat) (n : Z) : mem * text :=
  let '(m, u) := new m (headrun MAXL 15) in
  let '(m, p) := new m {| len := n; fnt := dflt; col := 15; voff := 0; kd := Piece f 0 true |} in
  let m :=
    if n >? 0 then
      let m := set_nx m u p in
      let m := set_pv m u p in
      let m := set_nx m p u in
      set_pv m p u
    else set_pv (set_nx m u u) u u in
  (m, {| tlen := n; thead := u; tcache := u; tcorg := 0 |}).
(** Texts.Mod 718-770 for a file of one piece ([Load0] leaves [fnt] NIL: line 762 is commented out). *)
Definition LoadPiece (m : mem) (f : nat) (org n c v : Z) : mem * text :=
  let '(m, u) := new m (headrun MAXL 15) in
  let '(m, p) := new m {| len := n; fnt := None; col := c; voff := v; kd := Piece f org false |} in
  let m := set_nx m u p in
  let m := set_pv m p u in
  let m := set_nx m p u in
  let m := set_pv m u p in
  (m, {| tlen := n; thead := u; tcache := u; tcorg := 0 |}).

(** ** The module as a machine *)
Record state := {
  mm : mem; fl : nat -> list Z; nf : nat;
  tx : nat -> option text; bf : nat -> option buffer; nb : nat;
  wr : nat -> option writer; del : option nat }.
Definition init : state :=
  {| mm := {| nx := fun _ => 0%nat; pv := fun _ => 0%nat; bd := fun _ => headrun 0 0; nxt := 0%nat |};
     fl := fun _ => []; nf := 0; tx := fun _ => None; bf := fun _ => None; nb := 0;
     wr := fun _ => None; del := None |}.
(** Calls of the module.  Texts and writers are named by the client; [NewBuf] gives the next buffer
    number; [ReadN t pos n] opens a reader and reads [n] times. *)
Inductive call :=
  | OpenText (t : nat) (bytes : list Z)
  | NewBuf
  | NewWriter (w : nat)
  | SetLooks (w : nat) (f : list Z) (c v : Z)
  | WriteCh (w : nat) (ch : Z)
  | WriteEl (w : nat) (id : nat)
  | CopyBuf (sb db : nat)
  | RecallBuf
  | SaveTo (t : nat) (beg end_ : Z) (b : nat)
  | InsertAt (t : nat) (pos : Z) (b : nat)
  | AppendTo (t : nat) (b : nat)
  | DeleteFrom (t : nat) (beg end_ : Z)
  | Change (t : nat) (beg end_ : Z) (k : looks)
  | LenOf (t : nat)
  | BufLen (b : nat)
  | ReadN (t : nat) (pos : Z) (n : nat).
(** One reading: character, font, colour, offset, element with its base ([ElemBase], Texts.Mod 201),
    end-of-text mark, position after it. *)
Definition reading : Type := Z * font * Z * Z * option (nat * option nat) * bool * Z.
Inductive answer :=
  | ANone | ANote (n : note) | AInt (z : Z) | ABuf (b : option nat) | ARead (l : list reading).

Fixpoint reads (m : mem) (files : nat -> list Z) (R : reader) (n : nat) : list reading :=
  match n with
  | O => []
  | S n =>
      let '(R', ch) := Read m files R in
      (ch, rfnt R', rcol R', rvoff R', relem R', reot R', rorg R' + roff R') :: reads m files R' n
  end.
Definition some {A} (o : option A) : res A := match o with Some a => Ok a | None => Trap (-1) end.
Definition with_tx (s : state) (m : mem) (t : nat) (x : text) : state :=
  {| mm := m; fl := fl s; nf := nf s; tx := upd (tx s) t (Some x); bf := bf s; nb := nb s; wr := wr s; del := del s |}.
Definition with_tb (s : state) (m : mem) (t : nat) (x : text) (b : nat) (B : buffer) : state :=
  {| mm := m; fl := fl s; nf := nf s; tx := upd (tx s) t (Some x); bf := upd (bf s) b (Some B); nb := nb s; wr := wr s; del := del s |}.
Definition with_b (s : state) (m : mem) (b : nat) (B : buffer) : state :=
  {| mm := m; fl := fl s; nf := nf s; tx := tx s; bf := upd (bf s) b (Some B); nb := nb s; wr := wr s; del := del s |}.
Definition step (s : state) (c : call) : res (state * answer) :=
  match c with
  | OpenText t bytes =>
      let '(m, x) := Open (mm s) (nf s) (Z.of_nat (length bytes)) in
      Ok ({| mm := m; fl := upd (fl s) (nf s) bytes; nf := S (nf s); tx := upd (tx s) t (Some x);
             bf := bf s; nb := nb s; wr := wr s; del := del s |}, ANone)
  | NewBuf =>
      let '(m, B) := OpenBuf (mm s) in
      Ok ({| mm := m; fl := fl s; nf := nf s; tx := tx s; bf := upd (bf s) (nb s) (Some B); nb := S (nb s);
             wr := wr s; del := del s |}, ABuf (Some (nb s)))
  | NewWriter w =>
      let '(m, B) := OpenBuf (mm s) in
      Ok ({| mm := m; fl := upd (fl s) (nf s) []; nf := S (nf s); tx := tx s; bf := upd (bf s) (nb s) (Some B);
             nb := S (nb s);
             wr := upd (wr s) w (Some {| wbuf := nb s; wfnt := dflt; wcol := 15; wvoff := 0; wfile := nf s |});
             del := del s |}, ABuf (Some (nb s)))
  | SetLooks w f c v =>
      let* W := some (wr s w) in
      Ok ({| mm := mm s; fl := fl s; nf := nf s; tx := tx s; bf := bf s; nb := nb s;
             wr := upd (wr s) w (Some {| wbuf := wbuf W; wfnt := Some f; wcol := c; wvoff := v; wfile := wfile W |});
             del := del s |}, ANone)
  | WriteCh w ch =>
      let* W := some (wr s w) in
      let* B := some (bf s (wbuf W)) in
      let* (mB, file) := Write (mm s) W B (fl s (wfile W)) ch in
      let '(m, B) := mB in
      Ok ({| mm := m; fl := upd (fl s) (wfile W) file; nf := nf s; tx := tx s; bf := upd (bf s) (wbuf W) (Some B);
             nb := nb s; wr := wr s; del := del s |}, ANone)
  | WriteEl w id =>
      let* W := some (wr s w) in
      let* B := some (bf s (wbuf W)) in
      let '(m, B) := WriteElem (mm s) W B id in
      Ok (with_b s m (wbuf W) B, ANone)
  | CopyBuf sb db =>
      let* SB := some (bf s sb) in
      let* DB := some (bf s db) in
      let* (m, DB) := Copy (mm s) SB DB in
      Ok (with_b s m db DB, ANone)
  | RecallBuf =>
      Ok ({| mm := mm s; fl := fl s; nf := nf s; tx := tx s; bf := bf s; nb := nb s; wr := wr s; del := None |},
          ABuf (del s))
  | SaveTo t beg end_ b =>
      let* x := some (tx s t) in
      let* B := some (bf s b) in
      let* (mx, B) := Save (mm s) x beg end_ B in
      let '(m, x) := mx in
      Ok (with_tb s m t x b B, ANone)
  | InsertAt t pos b =>
      let* x := some (tx s t) in
      let* B := some (bf s b) in
      let* r := Insert (mm s) t x pos B in
      let '(m, x, B, n) := r in
      Ok (with_tb s m t x b B, ANote n)
  | AppendTo t b =>
      let* x := some (tx s t) in
      let* B := some (bf s b) in
      let* r := Append (mm s) t x B in
      let '(m, x, B, n) := r in
      Ok (with_tb s m t x b B, ANote n)
  | DeleteFrom t beg end_ =>
      let* x := some (tx s t) in
      let* r := Delete (mm s) x beg end_ in
      let '(m, x, B, n) := r in
      Ok ({| mm := m; fl := fl s; nf := nf s; tx := upd (tx s) t (Some x); bf := upd (bf s) (nb s) (Some B);
             nb := S (nb s); wr := wr s; del := Some (nb s) |}, ANote n)
  | Change t beg end_ k =>
      let* x := some (tx s t) in
      let* r := ChangeLooks (mm s) x beg end_ k in
      let '(m, x, n) := r in
      Ok (with_tx s m t x, ANote n)
  | LenOf t => let* x := some (tx s t) in Ok (s, AInt (tlen x))
  | BufLen b => let* B := some (bf s b) in Ok (s, AInt (blen B))
  | ReadN t pos n =>
      let* x := some (tx s t) in
      let* (x, R) := OpenReader (mm s) x pos in
      Ok (with_tx s (mm s) t x, ARead (reads (mm s) (fl s) R n))
  end.
Fixpoint run (s : state) (l : list call) : res (state * list answer) :=
  match l with
  | [] => Ok (s, [])
  | c :: l =>
      let* (s, a) := step s c in
      let* (s, r) := run s l in
      Ok (s, a :: r)
  end.
