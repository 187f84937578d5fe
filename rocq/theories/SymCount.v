(** Symbol files: the count of hidden fields.  As long as all hidden pointers of the module are at most MaxHdFld, the exporter writes every one of them; [SOut] is
    the exporter without the count. *)
From Verif Require Import Base SymModel SymBytes SymSpec.

Lemma Zlength_app : forall (A : Type) (a b : list A), Zlength (a ++ b) = Zlength a + Zlength b.
Proof. intros. rewrite !Zlength_correct, app_length. lia. Qed.
Lemma Zlength_nonneg : forall (A : Type) (a : list A), 0 <= Zlength a.
Proof. intros. rewrite Zlength_correct. lia. Qed.
Arguments Zlength_nonneg {A} a.

Section Count.
Variable g : graph.
Variable H : fld -> list Z.
Hypothesis WF : wf g H.
Hypothesis HID : forall i base al n fs ps f, sshape (str_of g i) = Rec base al n fs ps -> In f fs -> fvis f = Internal -> hidden_ptrs g f (H f).
Hypothesis TOT : total_hidden g H <= MaxHdFld.

(** ** The hidden pointers of one field *)
Lemma elem_pos : forall f t n b k, 1 <= n -> elem g f t n = Ok (b, k) -> 1 <= k.
Proof.
  induction f as [| f IH]; intros t n b k N E; cbn [elem] in E; [discriminate |].
  destruct (shape_of g t) as [[| | b' m | |] |] eqn:S; try (inversion E; subst; exact N).
  destruct (chk 32 (m * n)) as [n' | | |] eqn:C; try discriminate. cbn [bind] in E. apply chk_inv in C as [-> _].
  destruct t as [| | | i]; try discriminate. cbn [shape_of] in S. inversion S as [S']. pose proof (wf_strs _ _ WF i) as (_ & _ & _ & _ & O). rewrite S' in O.
  apply (IH _ _ _ _ (ltac:(nia) : 1 <= m * n) E).
Qed.
Lemma elem_det : forall f f' t n x y, elem g f t n = Ok x -> elem g f' t n = Ok y -> x = y.
Proof.
  induction f as [| f IH]; intros f' t n x y E E'; cbn [elem] in E; [discriminate |]. destruct f' as [| f']; cbn [elem] in E'; [discriminate |].
  destruct (shape_of g t) as [[| | b' m | |] |]; try congruence. destruct (chk 32 (m * n)) as [n' | | |]; try discriminate. cbn [bind] in *. apply (IH f' _ _ _ _ E E').
Qed.
Lemma hid_shift : forall f t n a l d, hid g f t n a = Some l -> hid g f t n (a + d) = Some (map (fun x => x + d) l).
Proof.
  induction f as [| f IH]; intros t n a l d E; cbn [hid] in *; [discriminate |].
  assert (FS : forall fs a l, hid_flds (hid g f) fs a = Some l -> hid_flds (hid g f) fs (a + d) = Some (map (fun x => x + d) l)).
  { induction fs as [| x fs IHf]; intros a0 l0 E0; cbn [hid_flds] in *; [inversion E0; subst; reflexivity |].
    destruct (hid g f (ftyp x) (fname x) (fadr x + a0)) as [l1 |] eqn:E1; [| discriminate]. destruct (hid_flds (hid g f) fs a0) as [l2 |] eqn:E2; [| discriminate].
    rewrite (Z.add_assoc (fadr x) a0 d), (IH _ _ _ _ d E1), (IHf _ _ E2). inversion E0. now rewrite map_app. }
  assert (ES : forall b k a l s, hid_elems k (hid g f b n) a s = Some l -> hid_elems k (hid g f b n) (a + d) s = Some (map (fun x => x + d) l)).
  { induction k as [| k IHk]; intros a0 l0 s E0; cbn [hid_elems] in *; [inversion E0; subst; reflexivity |].
    destruct (hid g f b n a0) as [l1 |] eqn:E1; [| discriminate]. destruct (hid_elems k (hid g f b n) (a0 + s) s) as [l2 |] eqn:E2; [| discriminate].
    replace (a0 + d + s) with (a0 + s + d) by lia. rewrite (IH _ _ _ _ d E1), (IHk _ _ _ E2). inversion E0. now rewrite map_app. }
  destruct (is_record g t); [apply FS, E |]. destruct (is_array g t).
  - destruct (elem g f t 1) as [[b k] | | |]; try discriminate. destruct (is_pointer g b || is_record g b); [apply ES, E |]. inversion E; subst; reflexivity.
  - inversion E; subst. destruct (_ || _); reflexivity.
Qed.

Lemma hd_flds_ok : forall (one : ty -> name -> Z -> Z -> res (list Z * Z)) one' fs a cnt l c l0,
  (forall t n a cnt l c l0, one t n a cnt = Ok (l, c) -> one' t n a = Some l0 -> cnt + Zlength l0 <= MaxHdFld -> l = l0 /\ c = cnt + Zlength l0) ->
  hd_flds one fs a cnt = Ok (l, c) -> hid_flds one' fs a = Some l0 -> cnt + Zlength l0 <= MaxHdFld -> l = l0 /\ c = cnt + Zlength l0.
Proof.
  intros one one'. induction fs as [| f fs IH]; intros a cnt l c l0 O E E' B; cbn [hd_flds hid_flds] in *.
  - inversion E; inversion E'; subst. rewrite Zlength_nil. split; [reflexivity | lia].
  - destruct (one (ftyp f) (fname f) (fadr f + a) cnt) as [[l1 c1] | | |] eqn:E1; try discriminate. cbn [bind] in E.
    destruct (hd_flds one fs a c1) as [[l2 c2] | | |] eqn:E2; try discriminate. cbn [bind] in E. inversion E; subst.
    destruct (one' (ftyp f) (fname f) (fadr f + a)) as [l1' |] eqn:F1; [| discriminate]. destruct (hid_flds one' fs a) as [l2' |] eqn:F2; [| discriminate]. inversion E'; subst.
    rewrite Zlength_app in *. pose proof (Zlength_nonneg l1'). pose proof (Zlength_nonneg l2').
    destruct (O _ _ _ _ _ _ _ E1 F1 ltac:(lia)) as [-> ->]. destruct (IH _ _ _ _ _ O E2 F2 ltac:(lia)) as [-> ->]. split; [reflexivity | lia].
Qed.
Lemma hd_elems_ok : forall f (one : Z -> Z -> res (list Z * Z)) one' i n a s cnt l c l0 k,
  (forall a cnt l c l0, one a cnt = Ok (l, c) -> one' a = Some l0 -> cnt + Zlength l0 <= MaxHdFld -> l = l0 /\ c = cnt + Zlength l0) ->
  hd_elems f one i n a s cnt = Ok (l, c) -> hid_elems k one' (a + s) s = Some l0 -> Z.of_nat k = n - i -> cnt + Zlength l0 <= MaxHdFld -> l = l0 /\ c = cnt + Zlength l0.
Proof.
  induction f as [| f IH]; intros one one' i n a s cnt l c l0 k O E E' K B; cbn [hd_elems] in E; [discriminate |].
  pose proof (Zlength_nonneg l0). replace (cnt <=? MaxHdFld) with true in E by lia. rewrite andb_true_r in E.
  destruct k as [| k]; cbn [hid_elems] in E'.
  - replace (i <? n) with false in E by lia. inversion E; inversion E'; subst. rewrite Zlength_nil. split; [reflexivity | lia].
  - replace (i <? n) with true in E by lia. destruct (one (a + s) cnt) as [[l1 c1] | | |] eqn:E1; try discriminate. cbn [bind] in E.
    destruct (hd_elems f one (i + 1) n (a + s) s c1) as [[l2 c2] | | |] eqn:E2; try discriminate. cbn [bind] in E. inversion E; subst.
    destruct (one' (a + s)) as [l1' |] eqn:F1; [| discriminate]. destruct (hid_elems k one' (a + s + s) s) as [l2' |] eqn:F2; [| discriminate]. inversion E'; subst.
    rewrite Zlength_app in *. pose proof (Zlength_nonneg l1'). pose proof (Zlength_nonneg l2').
    destruct (O _ _ _ _ _ E1 F1 ltac:(lia)) as [-> ->]. destruct (IH _ _ _ _ _ _ _ _ _ _ k O E2 F2 ltac:(lia) ltac:(lia)) as [-> ->]. split; [reflexivity | lia].
Qed.
Lemma hid_elems_none : forall k one a s, (forall d, one (a + d) = Some []) -> hid_elems k one a s = Some [].
Proof.
  induction k as [| k IH]; intros one a s O; cbn [hid_elems]; [reflexivity |]. rewrite <- (Z.add_0_r a) at 1. rewrite (O 0), IH; [reflexivity |].
  intros d. rewrite <- Z.add_assoc. apply O.
Qed.
Lemma OutHdFld_ok : forall F f t n a cnt l c l0,
  OutHdFld g f t n a cnt = Ok (l, c) -> hid g F t n a = Some l0 -> cnt + Zlength l0 <= MaxHdFld -> l = l0 /\ c = cnt + Zlength l0.
Proof.
  induction F as [| F IH]; intros f t n a cnt l c l0 E E' B; cbn [hid] in E'; [discriminate |]. destruct f as [| f]; cbn [OutHdFld] in E; [discriminate |].
  destruct (is_record g t).
  - apply (hd_flds_ok _ _ _ _ _ _ _ _ (IH f) E E' B).
  - destruct (is_array g t).
    + destruct (elem g F t 1) as [[b k] | | |] eqn:L; try discriminate. destruct (elem g f t 1) as [[b' k'] | | |] eqn:L'; try discriminate. cbn [bind] in E.
      pose proof (elem_det _ _ _ _ _ _ L L') as D. inversion D; subst b' k'. clear D.
      destruct (is_pointer g b || is_record g b); [| inversion E; inversion E'; subst; rewrite Zlength_nil; split; [reflexivity | lia]].
      pose proof (elem_pos _ _ _ _ _ (Z.le_refl 1) L) as KP. destruct (Z.to_nat k) as [| k1] eqn:K; [lia |]. cbn [hid_elems] in E'.
      destruct (OutHdFld g f b n a cnt) as [[l1 c1] | | |] eqn:E1; try discriminate. cbn [bind] in E.
      destruct (hid g F b n a) as [l1' |] eqn:F1; [| discriminate]. destruct (hid_elems k1 (hid g F b n) (a + size_of g b) (size_of g b)) as [l2' |] eqn:F2; [| discriminate].
      inversion E'; subst. rewrite Zlength_app in *. pose proof (Zlength_nonneg l1'). pose proof (Zlength_nonneg l2').
      destruct (IH _ _ _ _ _ _ _ _ E1 F1 ltac:(lia)) as [-> ->].
      destruct (Z.eqb_spec cnt (cnt + Zlength l1')) as [Q | Q]; cbn [negb] in E.
      * assert (l1' = []) by (apply Zlength_nil_inv; lia). subst l1'. inversion E; subst.
        rewrite hid_elems_none in F2.
        -- inversion F2; subst. rewrite !Zlength_nil. split; [reflexivity | lia].
        -- intros d. rewrite <- Z.add_assoc. apply (hid_shift _ _ _ _ _ _ F1).
      * destruct (hd_elems f (OutHdFld g f b n) 1 k a (size_of g b) (cnt + Zlength l1')) as [[l2 c2] | | |] eqn:E2; try discriminate. cbn [bind] in E. inversion E; subst.
        destruct (hd_elems_ok _ _ (hid g F b n) _ _ _ _ _ _ _ l2' k1 (fun a => IH f b n a) E2 F2 ltac:(lia) ltac:(lia)) as [-> ->]. split; [reflexivity | lia].
    + destruct (_ || _); inversion E; inversion E'; subst; [change (Zlength [a]) with 1 | rewrite Zlength_nil]; split; try reflexivity; lia.
Qed.

(** ** The writer without the count *)
Section SOut.
Variable out : ty -> wst -> res (list Z * wst).
Fixpoint SFlds (fs : list fld) (w : wst) : res (list Z * wst) :=
  match fs with
  | [] => Ok ([], w)
  | f :: fs =>
      let* (a, w1) :=
        match fvis f with
        | Internal => Ok (hdptrs (H f), set_cnt w (wcnt w + Zlength (H f)))
        | v => let* (b, w1) := out (ftyp f) w in Ok (num (match v with ReadOnly => 26 | _ => 25 end) ++ b ++ OutName (fname f) ++ num (fadr f), w1)
        end in
      let* (r, w2) := SFlds fs w1 in
      Ok (a ++ r, w2)
  end.
Fixpoint STProcs (ps : list tproc) (w : wst) : res (list Z * wst) :=
  match ps with
  | [] => Ok ([], w)
  | p :: ps =>
      let* (b, w1) := OutSign out (tsig p) w in
      let* (r, w2) := STProcs ps w1 in
      Ok ((num 29 ++ b ++ OutName (tname p) ++ num (tnum p)) ++ r, w2)
  end.
Definition SShape (s : shape) (size : Z) (w : wst) : res (list Z * wst) :=
  match s with
  | Pointer b => let* (r, w1) := out b w in Ok (num 36 ++ r, w1)
  | Proc sg => let* (r, w1) := OutSign out sg w in Ok (num 40 ++ r, w1)
  | Array b n => let* (r, w1) := out b w in Ok (num 37 ++ r ++ num n, w1)
  | DynArr b => let* (r, w1) := out b w in Ok (num 38 ++ r, w1)
  | Rec base al n fs ps =>
      let* (a, w1) := out (match base with None => TB 10 | Some b => b end) w in
      let* (b, w2) := SFlds fs (set_cnt w1 0) in
      let* (c, w3) := STProcs (exported ps) w2 in
      Ok (num 39 ++ a ++ num size ++ num al ++ num n ++ b ++ c ++ num 18, w3)
  end.
End SOut.
Fixpoint SOut (fuel : nat) (t : ty) (w : wst) : res (list Z * wst) :=
  match fuel with
  | O => Fuel
  | S fuel =>
      match t with
      | TB f => Ok (num (- f), w)
      | TInt s => Ok (num (-4) ++ num s, w)
      | TSet s => Ok (num (-7) ++ num s, w)
      | TS i =>
          match wref w i with
          | Some r => Ok (num (- r), w)
          | None =>
              let s := str_of g i in
              if wnext w + 1 >=? maxStruct then Trap 228 else
              let* (m, w1) := OutMod g (smno s) (mkw (upd (wref w) i (wnext w)) (wnext w + 1) (wloc w) (wnofm w) (wcnt w)) in
              let* (b, w2) := SShape (SOut fuel) (sshape s) (ssize s) w1 in
              Ok (num 34 ++ m ++ OutName (sname s) ++ (if negb (sysflag s =? 0) then num 35 ++ num (sysflag s) else []) ++ b, w2)
          end
      end
  end.

(** The hidden pointers of the types not yet written. *)
Definition open_hidden (wr : nat -> option Z) (is : list nat) : Z := fold_right (fun i n => match wr i with None => nhidden g H i | Some _ => 0 end + n) 0 is.
Definition U (w : wst) : Z := open_hidden (wref w) (seq 0 (length (types g))).
Definition hidden_of (fs : list fld) : Z := fold_right (fun f n => match fvis f with Internal => Zlength (H f) | _ => 0 end + n) 0 fs.
Lemma hidden_of_nonneg : forall fs, 0 <= hidden_of fs.
Proof. induction fs as [| f fs IH]; cbn [hidden_of fold_right]; [lia |]. fold (hidden_of fs). destruct (fvis f); pose proof (Zlength_nonneg (H f)); lia. Qed.
Lemma nhidden_nonneg : forall i, 0 <= nhidden g H i.
Proof. intros i. unfold nhidden. destruct (sshape (str_of g i)); try lia. apply hidden_of_nonneg. Qed.
Lemma open_nonneg : forall wr is, 0 <= open_hidden wr is.
Proof. induction is as [| i is IH]; cbn [open_hidden fold_right]; [lia |]. fold (open_hidden wr is). pose proof (nhidden_nonneg i). destruct (wr i); lia. Qed.
Lemma open_upd : forall wr is i k, NoDup is -> wr i = None -> open_hidden (upd wr i k) is + (if in_dec Nat.eq_dec i is then nhidden g H i else 0) = open_hidden wr is.
Proof.
  induction is as [| j is IH]; intros i k D N; cbn [open_hidden fold_right]; [reflexivity |]. fold (open_hidden (upd wr i k) is). fold (open_hidden wr is).
  apply NoDup_cons_iff in D as [D1 D2]. specialize (IH i k D2 N). unfold upd at 1.
  destruct (in_dec Nat.eq_dec i (j :: is)) as [I | I]; destruct (in_dec Nat.eq_dec i is) as [I' | I']; cbn [In] in I; destruct (Nat.eqb_spec j i) as [-> | Q]; rewrite ?N; try tauto; try lia.
Qed.
Lemma U_write : forall w i k n lm nm c, wref w i = None -> U (mkw (upd (wref w) i k) n lm nm c) + nhidden g H i = U w.
Proof.
  intros w i k n lm nm c N. unfold U. cbn [wref]. pose proof (open_upd (wref w) (seq 0 (length (types g))) i k (seq_NoDup _ _) N) as E.
  destruct (in_dec Nat.eq_dec i (seq 0 (length (types g)))) as [I | I]; [exact E |]. rewrite <- E.
  enough (nhidden g H i = 0) by lia. unfold nhidden, str_of. rewrite nth_overflow; [reflexivity |]. rewrite in_seq in I. lia.
Qed.

Definition good (w : wst) : Prop := 0 <= wcnt w /\ wcnt w + U w <= MaxHdFld.
Definition agree (out out' : ty -> wst -> res (list Z * wst)) : Prop :=
  forall t w b w', good w -> out t w = Ok (b, w') -> out' t w = Ok (b, w') /\ 0 <= wcnt w' /\ wcnt w' + U w' <= wcnt w + U w.
Ltac inv_bind E x := match type of E with bind ?m _ = Ok _ => destruct m as [x | | |] eqn:?; cbn [bind] in E; try discriminate end.

Lemma OutPars_agree : forall out out', agree out out' -> forall ps w b w', good w -> OutPars out ps w = Ok (b, w') ->
  OutPars out' ps w = Ok (b, w') /\ 0 <= wcnt w' /\ wcnt w' + U w' <= wcnt w + U w.
Proof.
  intros out out' A. induction ps as [| p ps IH]; intros w b w' G E; cbn [OutPars] in *.
  - inversion E; subst. unfold good in G. split; [reflexivity | lia].
  - inv_bind E x. destruct x as [b1 w1]. inv_bind E x. destruct x as [b2 w2]. destruct (A _ _ _ _ G Heqr) as (-> & C1 & C2). cbn [bind].
    destruct (IH w1 b2 w2 ltac:(unfold good in *; lia) Heqr0) as (-> & C3 & C4). cbn [bind]. inversion E; subst. split; [reflexivity | lia].
Qed.
Lemma OutSign_agree : forall out out', agree out out' -> forall s w b w', good w -> OutSign out s w = Ok (b, w') ->
  OutSign out' s w = Ok (b, w') /\ 0 <= wcnt w' /\ wcnt w' + U w' <= wcnt w + U w.
Proof.
  intros out out' A s w b w' G E. unfold OutSign in *. inv_bind E x. destruct x as [b1 w1]. inv_bind E x. destruct x as [b2 w2]. destruct (A _ _ _ _ G Heqr) as (-> & C1 & C2). cbn [bind].
  destruct (OutPars_agree _ _ A (spar s) w1 b2 w2 ltac:(unfold good in *; lia) Heqr0) as (-> & C3 & C4). cbn [bind]. inversion E; subst. split; [reflexivity | lia].
Qed.
Lemma OutTProcs_agree : forall out out', agree out out' -> forall nb ps w b w', good w -> OutTProcs out nb ps w = Ok (b, w') ->
  STProcs out' (exported ps) w = Ok (b, w') /\ 0 <= wcnt w' /\ wcnt w' + U w' <= wcnt w + U w.
Proof.
  intros out out' A nb. induction ps as [| p ps IH]; intros w b w' G E; cbn [OutTProcs] in *.
  - inversion E; subst. unfold good in G. split; [reflexivity | lia].
  - inv_bind E x. destruct x as [b1 w1]. inv_bind E x. destruct x as [b2 w2]. unfold exported. cbn [filter]. fold (exported ps). destruct (tvis p).
    + destruct (tnum p <? nb); [discriminate |]. inversion Heqr; subst. inversion E; subst. cbn [app]. destruct (IH _ _ _ G Heqr0) as (-> & C). split; [reflexivity | exact C].
    + inv_bind Heqr x. destruct x as [b3 w3]. destruct (OutSign_agree _ _ A _ _ _ _ G Heqr1) as (F & C1 & C2). inversion Heqr; subst. cbn [STProcs]. rewrite F. cbn [bind].
      destruct (IH w1 b2 w2 ltac:(unfold good in *; lia) Heqr0) as (-> & C3 & C4). cbn [bind]. inversion E; subst. split; [reflexivity | lia].
    + inv_bind Heqr x. destruct x as [b3 w3]. destruct (OutSign_agree _ _ A _ _ _ _ G Heqr1) as (F & C1 & C2). inversion Heqr; subst. cbn [STProcs]. rewrite F. cbn [bind].
      destruct (IH w1 b2 w2 ltac:(unfold good in *; lia) Heqr0) as (-> & C3 & C4). cbn [bind]. inversion E; subst. split; [reflexivity | lia].
Qed.
Lemma OutFlds_agree : forall out out' fuel, agree out out' -> forall fs w b w', (forall f, In f fs -> fvis f = Internal -> hidden_ptrs g f (H f)) ->
  0 <= wcnt w -> wcnt w + U w + hidden_of fs <= MaxHdFld -> OutFlds g out fuel fs w = Ok (b, w') ->
  SFlds out' fs w = Ok (b, w') /\ 0 <= wcnt w' /\ wcnt w' + U w' <= wcnt w + U w + hidden_of fs.
Proof.
  intros out out' fuel A. induction fs as [| f fs IH]; intros w b w' HF G0 G1 E; cbn [OutFlds SFlds hidden_of fold_right] in *.
  - inversion E; subst. split; [reflexivity | lia].
  - fold (hidden_of fs) in *. pose proof (hidden_of_nonneg fs) as HN. inv_bind E x. destruct x as [b1 w1]. inv_bind E x. destruct x as [b2 w2].
    destruct (fvis f) eqn:V.
    + inv_bind Heqr x. destruct x as [l c]. destruct (HF f (or_introl eq_refl) V) as (F & HQ). pose proof (Zlength_nonneg (H f)). pose proof (open_nonneg (wref w) (seq 0 (length (types g)))) as UN. fold (U w) in UN.
      destruct (OutHdFld_ok _ _ _ _ _ _ _ _ _ Heqr1 HQ ltac:(lia)) as [-> ->]. inversion Heqr; subst. cbn [bind].
      assert (UE : U (set_cnt w (wcnt w + Zlength (H f))) = U w) by reflexivity.
      destruct (IH (set_cnt w (wcnt w + Zlength (H f))) b2 w2 (fun f' I => HF f' (or_intror I)) ltac:(cbn [set_cnt wcnt]; lia) ltac:(rewrite UE; cbn [set_cnt wcnt]; lia) Heqr0) as (-> & C1 & C2). cbn [bind]. inversion E; subst.
      rewrite UE in C2. cbn [set_cnt wcnt] in C2. split; [reflexivity | lia].
    + inv_bind Heqr x. destruct x as [b3 w3]. destruct (A (ftyp f) w b3 w3 ltac:(unfold good; lia) Heqr1) as (-> & C1 & C2). cbn [bind]. inversion Heqr; subst.
      destruct (IH w1 b2 w2 (fun f' I => HF f' (or_intror I)) ltac:(lia) ltac:(lia) Heqr0) as (-> & C3 & C4). cbn [bind]. inversion E; subst. split; [reflexivity | lia].
    + inv_bind Heqr x. destruct x as [b3 w3]. destruct (A (ftyp f) w b3 w3 ltac:(unfold good; lia) Heqr1) as (-> & C1 & C2). cbn [bind]. inversion Heqr; subst.
      destruct (IH w1 b2 w2 (fun f' I => HF f' (or_intror I)) ltac:(lia) ltac:(lia) Heqr0) as (-> & C3 & C4). cbn [bind]. inversion E; subst. split; [reflexivity | lia].
Qed.
Lemma OutStr_agree : forall fuel, agree (OutStr g fuel) (SOut fuel).
Proof.
  induction fuel as [| fuel IH]; intros t w b w' G E; cbn [OutStr SOut] in *; [discriminate |].
  pose proof (open_nonneg (wref w) (seq 0 (length (types g)))) as UN. fold (U w) in UN.
  destruct t as [f | s | s | i]; try (inversion E; subst; unfold good in G; split; [reflexivity | lia]).
  destruct (wref w i) as [k |] eqn:W; [inversion E; subst; unfold good in G; split; [reflexivity | lia] |].
  destruct (wnext w + 1 >=? maxStruct); [discriminate |]. inv_bind E x. destruct x as [m w1]. cbn [bind]. inv_bind E x. destruct x as [b1 w2]. inversion E; subst.
  assert (W1 : wcnt w1 = wcnt w /\ U w1 + nhidden g H i = U w).
  { unfold OutMod in Heqr. cbn [wloc wref wnext wnofm wcnt] in Heqr. destruct (wloc w (smno (str_of g i))); inversion Heqr; subst; cbn [wcnt]; (split; [reflexivity |]); apply U_write, W. }
  destruct W1 as [W1 W2]. pose proof (nhidden_nonneg i) as NH.
  assert (G1 : good w1) by (unfold good in *; lia).
  enough (Q : SShape (SOut fuel) (sshape (str_of g i)) (ssize (str_of g i)) w1 = Ok (b1, w') /\ 0 <= wcnt w' /\ wcnt w' + U w' <= wcnt w1 + U w1 + nhidden g H i).
  { destruct Q as (-> & C1 & C2). cbn [bind]. split; [reflexivity | lia]. }
  clear E Heqr. unfold OutShape, SShape in *. unfold nhidden in *. destruct (sshape (str_of g i)) as [bt | sg | bt n | bt | base al n fs ps] eqn:S.
  - inv_bind Heqr0 x. destruct x as [b2 w3]. destruct (IH _ _ _ _ G1 Heqr) as (-> & C1 & C2). cbn [bind]. inversion Heqr0; subst. split; [reflexivity | lia].
  - inv_bind Heqr0 x. destruct x as [b2 w3]. destruct (OutSign_agree _ _ IH _ _ _ _ G1 Heqr) as (-> & C1 & C2). cbn [bind]. inversion Heqr0; subst. split; [reflexivity | lia].
  - inv_bind Heqr0 x. destruct x as [b2 w3]. destruct (IH _ _ _ _ G1 Heqr) as (-> & C1 & C2). cbn [bind]. inversion Heqr0; subst. split; [reflexivity | lia].
  - inv_bind Heqr0 x. destruct x as [b2 w3]. destruct (IH _ _ _ _ G1 Heqr) as (-> & C1 & C2). cbn [bind]. inversion Heqr0; subst. split; [reflexivity | lia].
  - fold (hidden_of fs) in *. inv_bind Heqr0 x. destruct x as [b2 w3]. destruct (IH _ _ _ _ G1 Heqr) as (-> & C1 & C2). cbn [bind].
    inv_bind Heqr0 x. destruct x as [b3 w4]. assert (UE : U (set_cnt w3 0) = U w3) by reflexivity. unfold good in *.
    destruct (OutFlds_agree _ _ fuel IH fs (set_cnt w3 0) b3 w4 (fun f I V => HID _ _ _ _ _ _ _ S I V) ltac:(cbn [set_cnt wcnt]; lia) ltac:(rewrite UE; cbn [set_cnt wcnt]; lia) Heqr1) as (-> & C3 & C4).
    cbn [bind]. rewrite UE in C4. cbn [set_cnt wcnt] in C4. destruct (wcnt w4 >? MaxHdFld); [discriminate |]. inv_bind Heqr0 x. destruct x as [b5 w5].
    destruct (OutTProcs_agree _ _ IH _ _ _ _ _ (ltac:(unfold good; lia) : good w4) Heqr2) as (-> & C5 & C6). cbn [bind]. inversion Heqr0; subst. split; [reflexivity | lia].
Qed.
Lemma good_w0 : good w0.
Proof.
  unfold good. assert (U w0 = total_hidden g H) as ->; [| cbn [w0 wcnt]; lia].
  unfold U, open_hidden, total_hidden, w0. cbn [wref]. reflexivity.
Qed.
End Count.
