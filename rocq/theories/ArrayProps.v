(** C58: arrays allocated on the heap. *)
From Verif Require Import Base ArrZ HeapModel HeapSpec MarkProofs LayProofs ScanProofs AllocProofs ExtendProofs HeapProps GCProofs NewProofs TransSpec TransProofs AllocProps ArrayModel ArrayProofs.

(** The element type as the collector must see it: the offsets of the pointers in one element. *)
Definition elem_ok (s : hst) (L : list chunk) (sl elemsz nofdyn : Z) (e : elem) (eofs : list Z) : Prop :=
  match e with
  | NoPtr => eofs = []
  | Ptr => eofs = [0] /\ elemsz = 8 /\ nofdyn = 1
  | Rec typ =>
      words (hm s) (typ + 8) (eofs ++ [- 8 * (zlen eofs + 1)]) /\ (forall k, 0 <= k <= zlen eofs -> ~ inside L (typ + 8 + 8 * k) /\ typ + 8 + 8 * k <> sl) /\
      NoDup eofs /\ (forall o, In o eofs -> 0 <= o /\ o + 8 <= elemsz /\ exists k, o = 8 * k) /\ exists k, elemsz = 8 * k
  end.
(** The offsets of all pointers of an array of n elements that starts at [off]. *)
Definition array_ofs (n off elemsz : Z) (eofs : list Z) : list Z := elem_ofs (Z.to_nat n) off elemsz eofs.
Lemma array_ofs_in : forall n off elemsz eofs x, 0 <= n -> (In x (array_ofs n off elemsz eofs) <-> exists i o, 0 <= i < n /\ In o eofs /\ x = off + i * elemsz + o).
Proof.
  intros n off elemsz eofs x H. unfold array_ofs, elem_ofs. rewrite in_flat_map. split.
  - intros (b & B & I). apply count_up_in in B. destruct B as (i & B1 & ->). apply in_map_iff in I. destruct I as (o & <- & I). exists i, o. split; [lia|]. split; auto.
  - intros (i & o & I & O & ->). exists (off + i * elemsz). split; [apply count_up_in; exists i; split; auto; lia|]. apply in_map_iff. exists o. auto.
Qed.
Lemma elem_ofs_none : forall c off elemsz, elem_ofs c off elemsz [] = [].
Proof. induction c as [|c IH]; intros off elemsz; unfold elem_ofs in *; cbn [count_up flat_map map app]; auto. Qed.
Lemma count_up_ofs : forall c o, count_up c o 8 = elem_ofs c o 8 [0].
Proof. induction c as [|c IH]; intros o; unfold elem_ofs in *; cbn [count_up flat_map map app]; auto. rewrite <- IH. f_equal. lia. Qed.
Lemma nodup_app2 : forall (a b : list Z), NoDup a -> NoDup b -> (forall x, In x a -> ~ In x b) -> NoDup (a ++ b).
Proof.
  induction a as [|v a IH]; intros b A B D; cbn [app]; auto. inversion A; subst. constructor.
  - rewrite in_app_iff. intros [H|H]; auto. apply (D v); auto. left; auto.
  - apply IH; auto. intros x X. apply D. right; auto.
Qed.
Lemma elem_ofs_nodup : forall c off elemsz eofs, NoDup eofs -> (forall o, In o eofs -> 0 <= o /\ o < elemsz) -> NoDup (elem_ofs c off elemsz eofs).
Proof.
  induction c as [|c IH]; intros off elemsz eofs ND B; unfold elem_ofs in *; cbn [count_up flat_map]; [constructor|]. apply nodup_app2.
  - apply FinFun.Injective_map_NoDup; auto. intros a b E. lia.
  - apply IH; auto.
  - intros x I J. apply in_map_iff in I. destruct I as (o & <- & I). apply in_flat_map in J. destruct J as (b & J1 & J2). apply count_up_in in J1. destruct J1 as (i & Ii & ->). apply in_map_iff in J2. destruct J2 as (o' & E & O'). pose proof (B o I). pose proof (B o' O'). nia.
Qed.

(** NEW of an array: [dims] are the lengths, the open ones (of which there are nofdyn) first.  Unless the operating system refuses memory, NEW
    gives an address x with: the lengths of the open dimensions at x; after them the elements, all 0; a block of the heap that is in use,
    overlaps nothing alive and whose pointer offsets are exactly those of the pointers in the elements.  The heap is valid, and everything
    alive and all memory outside (except the local variable of NEWBLK at sl) is as before. *)
Theorem C58_new_array_partial : forall s L ls os push roots ws fs calls sl e elemsz elemalgn nofdyn dims eofs, hinv s L ls -> honest os ->
  Forall (fun q => q = 0 \/ In q (map ptr (blocks L))) roots -> (forall n, In n fs -> In (fobj n) (map ptr (blocks L))) ->
  hm s sl <> None -> ~ inside L sl -> (forall b k, In b (blocks L) -> 0 <= k <= zlen (bofs b) + 1 -> btag b + 8 * k <> sl) ->
  Forall (fun d => 0 < d) dims -> 0 <= nofdyn <= zlen dims -> 0 < elemsz -> elemalgn <= 8 -> elem_ok s L sl elemsz nofdyn e eofs ->
  let n := fold_right Z.mul 1 dims in let off := 8 * nofdyn in let lens := firstn (Z.to_nat nofdyn) dims in
  off + n * elemsz < 2 ^ 63 ->
  (exists t m sz, os t m sz = None) \/
  exists N x s' L' ls' fs' calls' b, (forall fuel, (N <= fuel)%nat -> NEWARR fuel os push roots ws sl e elemsz elemalgn nofdyn dims s fs calls = Ok (x, s', fs', calls')) /\
    hinv s' L' ls' /\ words (hm s') x lens /\ (forall a, x + off <= a < x + off + n * elemsz -> (exists j, a = 8 * j) -> hm s' a = Some 0) /\
    In b (blocks L') /\ ~ free ls' (ba b) /\ ptr b = x /\ x + off + n * elemsz <= ba b + bsz b /\ bofs b = array_ofs n off elemsz eofs /\
    (forall d, In d (blocks L) -> ~ free ls (ba d) -> alive s L roots ws fs d -> ba d + bsz d <= ba b \/ ba b + bsz b <= ba d) /\
    (forall d, In d (blocks L) -> ~ free ls (ba d) -> alive s L roots ws fs d -> In d (blocks L') /\ ~ free ls' (ba d) /\ forall a, ba d <= a < ba d + bsz d -> (exists j, a = 8 * j) -> hm s' a = hm s a) /\
    (forall a, hm s a <> None -> ~ inside L a -> a <> sl -> hm s' a = hm s a).
Proof.
  intros s L ls os push roots ws fs calls sl e elemsz elemalgn nofdyn dims eofs HI Ho VR VF Ms Ns Nt Fd Hd He Ha Hok n off lens Big.
  pose proof (ho_placed _ _ _ _ (hi_ok _ _ _ HI)) as P.
  assert (Pn : 1 <= n) by (unfold n; clear - Fd; induction Fd; cbn [fold_right]; nia).
  assert (Lb : zlen lens = nofdyn) by (unfold lens, zlen in *; rewrite firstn_length; lia).
  assert (Ce : count_elems dims 1 = Ok n) by (rewrite count_elems_spec; auto; [f_equal; fold n; lia|lia|fold n; nia]).
  assert (Do : data_offset elemalgn nofdyn = off) by (unfold data_offset; replace (8 <? elemalgn) with false by lia; unfold off; lia).
  assert (Ck : chk 64 (off + n * elemsz) = Ok (off + n * elemsz)) by (unfold chk; replace (in_intb 64 (off + n * elemsz)) with true; auto; symmetry; apply in_intb_iff; unfold in_int; change (64 - 1) with 63; nia).
  assert (Pe : 0 < n * elemsz) by nia.
  (* it is enough to build the array *)
  assert (FIN : forall N x bs s' fs' calls' D ofs m5, off + n * elemsz <= D -> (forall o, In o ofs <-> In o (array_ofs n off elemsz eofs)) -> ofs = array_ofs n off elemsz eofs ->
     made_array s L ls roots ws fs (slot s sl bs) x D bs ofs lens (setmem (wr m5 x lens) s') -> (forall fuel, (N <= fuel)%nat -> NEWARR fuel os push roots ws sl e elemsz elemalgn nofdyn dims s fs calls = Ok (x, setmem (wr m5 x lens) s', fs', calls')) ->
     exists N x s' L' ls' fs' calls' b, (forall fuel, (N <= fuel)%nat -> NEWARR fuel os push roots ws sl e elemsz elemalgn nofdyn dims s fs calls = Ok (x, s', fs', calls')) /\
    hinv s' L' ls' /\ words (hm s') x lens /\ (forall a, x + off <= a < x + off + n * elemsz -> (exists j, a = 8 * j) -> hm s' a = Some 0) /\
    In b (blocks L') /\ ~ free ls' (ba b) /\ ptr b = x /\ x + off + n * elemsz <= ba b + bsz b /\ bofs b = array_ofs n off elemsz eofs /\
    (forall d, In d (blocks L) -> ~ free ls (ba d) -> alive s L roots ws fs d -> ba d + bsz d <= ba b \/ ba b + bsz b <= ba d) /\
    (forall d, In d (blocks L) -> ~ free ls (ba d) -> alive s L roots ws fs d -> In d (blocks L') /\ ~ free ls' (ba d) /\ forall a, ba d <= a < ba d + bsz d -> (exists j, a = 8 * j) -> hm s' a = hm s a) /\
    (forall a, hm s a <> None -> ~ inside L a -> a <> sl -> hm s' a = hm s a)).
  { intros N x bs s' fs' calls' D ofs m5 HD _ Eo [(L' & ls' & b & Ev & B1 & B2 & B3 & B4 & B5 & B6 & B7) M2 M3 M4] A. destruct Ev as [E1 E2 E3].
    exists N, x, (setmem (wr m5 x lens) s'), L', ls', fs', calls', b. pose proof (zlen_nonneg _ ofs) as Lo. split; auto. split; auto. split; auto. split; [intros a Q1 Q2; apply M3; auto; rewrite Lb; fold off; lia|]. split; auto. split; auto. split; [unfold ptr; lia|]. split; [lia|]. split; [congruence|]. split; auto. split.
    - intros d D1 D2 D3. destruct (E2 d D1 D2 D3) as (Q1 & Q2 & Q3). split; auto. split; auto. intros a A1 A2. rewrite Q3 by auto. cbn [slot setmem hm]. apply upd_other. intros ->. apply Ns. apply (block_in L 1 d); auto.
    - intros a A1 A2 A3. assert (Q : hm (slot s sl bs) a = hm s a) by (cbn [slot setmem hm]; apply upd_other; auto). destruct (E3 a) as [Q1 _]; [congruence|auto|]. congruence. }
  assert (AO : forall o, (forall q, In q eofs -> 0 <= q /\ q + 8 <= elemsz /\ exists k, q = 8 * k) -> (exists k, elemsz = 8 * k) -> In o (array_ofs n off elemsz eofs) -> 8 * zlen lens <= o /\ o + 8 <= off + n * elemsz /\ exists k, o = 8 * k).
  { intros o Q (ek & Ek) I. apply array_ofs_in in I; [|lia]. destruct I as (i & q & Ii & Iq & ->). destruct (Q q Iq) as (Q1 & Q2 & (k & Q3)). rewrite Lb. split; [unfold off; nia|]. split; [nia|]. exists (nofdyn + i * ek + k). unfold off. nia. }
  assert (LO : zlen (array_ofs n off elemsz eofs) = n * zlen eofs) by (unfold array_ofs; rewrite elem_ofs_len; lia).
  destruct e as [| |typ]; cbn [elem_ok] in Hok.
  - (* no pointers *)
    subst eofs. set (size := off + n * elemsz). set (bs := (size + (4 * 8 + 32 - 1)) / 32 * 32). assert (P0 : 0 <= size) by (unfold size, off; nia). destruct (blk_size size P0) as (k & K1 & K2 & K3). fold bs in K2.
    destruct (NEWBLK_raw s L ls os push roots ws fs calls sl HI Ho VR VF Ms Ns Nt size bs P0 eq_refl) as (N & x & s' & fs' & calls' & [(t & m & sz & _ & R)|(Nx & R & A)]); [left; eauto|right].
    destruct (nb4_facts s L ls roots ws fs (slot s sl bs) s' x bs R ltac:(exists k; auto)) as (F1 & F2 & F3 & F4 & F5).
    destruct (finish_array s L ls roots ws fs (slot s sl bs) s' x bs size [] lens (nb4 (hm s') x bs) R) as [G1 G2]; auto; rewrite ?zlen_nil, ?Z.mul_0_r, ?Z.sub_0_r; auto.
    { exists k; auto. } { rewrite Lb. unfold size, off. nia. } { lia. } { constructor. } { intros o []. } { intros a Q1 Q2. apply F5; auto. unfold size in *. lia. }
    assert (Nil : array_ofs n off elemsz [] = []) by apply elem_ofs_none.
    apply (FIN N x bs s' fs' calls' size [] (nb4 (hm s') x bs)); auto; [unfold size; lia|rewrite Nil; tauto|].
    intros fuel F. unfold NEWARR. rewrite Ce, bind_ok, Do, Ck, bind_ok. fold size. rewrite A by auto. rewrite bind_ok. cbn [hm setmem]. fold lens. rewrite G1, bind_ok. reflexivity.
  - (* pointers *)
    destruct Hok as (-> & -> & ->). set (size := off + n * 8). set (bs := (size + n * 8 + (4 * 8 + 32 - 1)) / 32 * 32). assert (P0 : 0 <= size + n * 8) by (unfold size, off; nia). destruct (blk_size (size + n * 8) P0) as (k & K1 & K2 & K3). fold bs in K2.
    destruct (NEWBLK_raw s L ls os push roots ws fs calls sl HI Ho VR VF Ms Ns Nt (size + n * 8) bs P0 eq_refl) as (N & x & s' & fs' & calls' & [(t & m & sz & _ & R)|(Nx & R & A)]); [left; eauto|right].
    destruct (nb4_facts s L ls roots ws fs (slot s sl bs) s' x bs R ltac:(exists k; auto)) as (F1 & F2 & F3 & F4 & F5). cbn [words] in F3. destruct F3 as (F3a & F3b & _). pose proof (rw_al _ _ _ _ _ _ _ R) as (q & Q).
    set (ofs := array_ofs n off 8 [0]). assert (EO : count_up (Z.to_nat n) (1 * 8) 8 = ofs).
    { unfold ofs, array_ofs, off. rewrite <- count_up_ofs. reflexivity. }
    assert (Lo : zlen ofs = n) by (unfold ofs; rewrite LO; change (zlen [0]) with 1; lia).
    destruct (tabled_facts s L ls roots ws fs (slot s sl bs) s' x bs ofs size R ltac:(exists k; auto) ltac:(unfold size, off; nia) ltac:(rewrite Lo; lia)) as (T1 & T2 & T3 & T4 & T5).
    destruct (finish_array s L ls roots ws fs (slot s sl bs) s' x bs size ofs lens (tabled (nb4 (hm s') x bs) x bs ofs) R ltac:(exists k; auto) ltac:(rewrite Lb; unfold size, off; nia) ltac:(rewrite Lo; lia)) as [G1 G2]; auto.
    { apply elem_ofs_nodup; [repeat constructor; intros []|intros o [<-|[]]; lia]. }
    { intros o O. apply AO; auto; [intros q' [<-|[]]; split; [lia|split; [lia|exists 0; lia]]|exists 1; lia]. }
    apply (FIN N x bs s' fs' calls' size ofs (tabled (nb4 (hm s') x bs) x bs ofs)); auto; [unfold size; lia|unfold ofs; tauto|].
    intros fuel F. unfold NEWARR. rewrite Ce, bind_ok, Do, Ck, bind_ok. fold size. rewrite A by auto. rewrite bind_ok. cbv iota beta. cbn [hm setmem]. rewrite (get_ok _ _ _ F4), bind_ok. rewrite (get_ok _ _ _ F3a), bind_ok.
    assert (MP : forall a, x <= a < x - 8 + bs -> (exists j, a = 8 * j) -> nb4 (hm s') x bs a <> None) by (intros a Q1 Q2; apply F2; rewrite (rw_zero _ _ _ _ _ _ _ R a Q1 Q2); discriminate).
    rewrite put_chain by (apply MP; [unfold size, off in *; lia|exists (2 * q + 4 * k - 3 - n); lia]). rewrite bind_ok. rewrite ptr_loop_wr; [|intros i I; apply upd_dom, MP; [unfold size, off in *; lia|exists (2 * q + 4 * k - 3 - (n - 1) + i); lia]]. rewrite bind_ok. rewrite EO. rewrite Z2Nat.id by lia.
    rewrite put_chain by (apply wr_dom, upd_dom, MP; [unfold size, off in *; lia|exists (2 * q + 4 * k - 2); lia]). rewrite bind_ok.
    assert (E5 : upd (wr (upd (nb4 (hm s') x bs) (x + bs - 24 - 8 * n) bs) (x + bs - 24 - 8 * (n - 1)) ofs) (x + bs - 24 - 8 * (n - 1) + 8 * n) (- (n + 1) * 8) = wr (upd (nb4 (hm s') x bs) (x + bs - 24 - 8 * zlen ofs) bs) (x + bs - 24 - 8 * (zlen ofs - 1)) (ofs ++ [- (zlen ofs + 1) * 8])) by (rewrite wr_app, Lo; reflexivity).
    rewrite E5. set (mw := wr (upd _ _ _) _ (ofs ++ _)). assert (Gx : mw (x - 8) = Some (x + bs - 24)).
    { unfold mw. rewrite wr_other; [rewrite upd_other by (unfold size, off in *; lia); auto|]. rewrite zlen_app, zlen_cons, zlen_nil, Lo. intros i I. unfold size, off in *. lia. }
    rewrite (get_ok _ _ _ Gx), bind_ok. rewrite put_chain by congruence. rewrite bind_ok. rewrite bind_ok. cbn [hm setmem]. fold lens.
    assert (E6 : upd mw (x - 8) (x + bs - 24 - n * 8) = tabled (nb4 (hm s') x bs) x bs ofs) by (unfold tabled, mw; rewrite Lo; reflexivity).
    rewrite E6, G1, bind_ok. reflexivity.
  - (* records with pointers *)
    destruct Hok as (HW & HT & ND & HO & HE). set (np := n * zlen eofs). pose proof (zlen_nonneg _ eofs) as Le. assert (Pnp : 0 <= np) by (unfold np; nia).
    set (size := off + n * elemsz). set (bs := (size + np * 8 + (4 * 8 + 32 - 1)) / 32 * 32). assert (P0 : 0 <= size + np * 8) by (unfold size, off; nia). destruct (blk_size (size + np * 8) P0) as (k & K1 & K2 & K3). fold bs in K2. assert (Psz : 0 <= size) by (unfold size, off; nia).
    destruct (NEWBLK_raw s L ls os push roots ws fs calls sl HI Ho VR VF Ms Ns Nt (size + np * 8) bs P0 eq_refl) as (N & x & s' & fs' & calls' & [(t & m & sz & _ & R)|(Nx & R & A)]); [left; eauto|right].
    destruct (nb4_facts s L ls roots ws fs (slot s sl bs) s' x bs R ltac:(exists k; auto)) as (F1 & F2 & F3 & F4 & F5). cbn [words] in F3. destruct F3 as (F3a & F3b & _). pose proof (rw_al _ _ _ _ _ _ _ R) as (q & Q).
    set (ofs := array_ofs n off elemsz eofs). assert (Lo : zlen ofs = np) by (unfold ofs; rewrite LO; reflexivity).
    destruct (tabled_facts s L ls roots ws fs (slot s sl bs) s' x bs ofs size R ltac:(exists k; auto) Psz ltac:(rewrite Lo; lia)) as (T1 & T2 & T3 & T4 & T5).
    destruct (finish_array s L ls roots ws fs (slot s sl bs) s' x bs size ofs lens (tabled (nb4 (hm s') x bs) x bs ofs) R ltac:(exists k; auto) ltac:(rewrite Lb; unfold size, off; nia) ltac:(rewrite Lo; lia)) as [G1 G2]; auto.
    { apply elem_ofs_nodup; auto. intros o O. destruct (HO o O) as (O1 & O2 & _). lia. }
    assert (OUT : forall i, 0 <= i <= zlen eofs -> hm s' (typ + 8 + 8 * i) = hm s (typ + 8 + 8 * i) /\ ~ (x - 8 <= typ + 8 + 8 * i < x - 8 + bs)).
    { intros i I. destruct (HT i I) as [H1 H2]. assert (X : hm (slot s sl bs) (typ + 8 + 8 * i) = hm s (typ + 8 + 8 * i)) by (cbn [slot setmem hm]; apply upd_other; auto).
      assert (Mi : hm s (typ + 8 + 8 * i) <> None).
      { clear - HW I. revert HW. assert (Ln : i < zlen (eofs ++ [-8 * (zlen eofs + 1)])) by (rewrite zlen_app, zlen_cons, zlen_nil; lia). assert (I0 : 0 <= i) by lia. revert i I0 Ln I. generalize (typ + 8). generalize (eofs ++ [-8 * (zlen eofs + 1)]). clear. induction l as [|v l IH]; intros p i I0 Ln I W; [rewrite zlen_nil in Ln; lia|]. rewrite zlen_cons in Ln. cbn [words] in W. destruct W as [W1 W2]. destruct (Z.eq_dec i 0) as [->|]; [rewrite Z.mul_0_r, Z.add_0_r; congruence|]. replace (p + 8 * i) with (p + 8 + 8 * (i - 1)) by lia. apply IH; auto; lia. }
      destruct (rw_out _ _ _ _ _ _ _ R (typ + 8 + 8 * i)) as [X1 X2]; [congruence|auto|]. split; [congruence|auto]. }
    apply (FIN (N + S (length eofs))%nat x bs s' fs' calls' size ofs (tabled (nb4 (hm s') x bs) x bs ofs)); auto; [unfold size; lia|unfold ofs; tauto|].
    intros fuel F. unfold NEWARR. rewrite Ce, bind_ok, Do, Ck, bind_ok. fold size. rewrite (count_ptrs_spec eofs (hm s) (typ + 8) 0); [|intros o O; apply (HO o O)|rewrite Z.mul_0_r, Z.add_0_r, Z.add_0_l; auto|lia|lia]. rewrite bind_ok. rewrite Z.add_0_l. fold np. rewrite A by lia. rewrite bind_ok. cbv iota beta. cbn [hm setmem]. rewrite (get_ok _ _ _ F4), bind_ok. rewrite (get_ok _ _ _ F3a), bind_ok.
    assert (MP : forall a, x <= a < x - 8 + bs -> (exists j, a = 8 * j) -> nb4 (hm s') x bs a <> None) by (intros a Q1 Q2; apply F2; rewrite (rw_zero _ _ _ _ _ _ _ R a Q1 Q2); discriminate).
    rewrite put_chain by (apply MP; [lia|exists (2 * q + 4 * k - 3 - np); lia]). rewrite bind_ok.
    assert (WT : words (hm s) (typ + 8) eofs) by (apply words_app in HW; apply HW).
    rewrite rec_loop_wr; [| | |].
    2: { apply (words_frame (hm s)); auto. intros i I. destruct (OUT i ltac:(lia)) as [O1 O2]. rewrite upd_other by lia. rewrite F1 by auto. auto. }
    2: { rewrite Z2Nat.id by lia. fold np. intros i I. apply upd_dom, MP; [lia|exists (2 * q + 4 * k - 3 - (np - 1) + i); lia]. }
    2: { rewrite Z2Nat.id by lia. fold np. intros i i' I I' E. destruct (OUT i' ltac:(lia)) as [_ O2]. apply O2. rewrite <- E. lia. }
    rewrite bind_ok. rewrite Z2Nat.id by lia. fold np. change (elem_ofs (Z.to_nat n) off elemsz eofs) with ofs.
    rewrite put_chain by (apply wr_dom, upd_dom, MP; [lia|exists (2 * q + 4 * k - 2); lia]). rewrite bind_ok.
    assert (E5 : upd (wr (upd (nb4 (hm s') x bs) (x + bs - 24 - 8 * np) bs) (x + bs - 24 - 8 * (np - 1)) ofs) (x + bs - 24 - 8 * (np - 1) + 8 * np) (- (np + 1) * 8) = wr (upd (nb4 (hm s') x bs) (x + bs - 24 - 8 * zlen ofs) bs) (x + bs - 24 - 8 * (zlen ofs - 1)) (ofs ++ [- (zlen ofs + 1) * 8])) by (rewrite wr_app, Lo; reflexivity).
    rewrite E5. set (mw := wr (upd _ _ _) _ (ofs ++ _)). assert (Gx : mw (x - 8) = Some (x + bs - 24)).
    { unfold mw. rewrite wr_other; [rewrite upd_other by lia; auto|]. rewrite zlen_app, zlen_cons, zlen_nil, Lo. intros i I. lia. }
    rewrite (get_ok _ _ _ Gx), bind_ok. rewrite put_chain by congruence. rewrite bind_ok. rewrite bind_ok. cbn [hm setmem]. fold lens.
    assert (E6 : upd mw (x - 8) (x + bs - 24 - np * 8) = tabled (nb4 (hm s') x bs) x bs ofs) by (unfold tabled, mw; rewrite Lo; reflexivity).
    rewrite E6, G1, bind_ok. reflexivity.
Qed.

(** * What is missing, and refutations *)
(** A heap with one mapped word at 1200 for the local variable of NEWBLK. *)
Definition arm0 : mem := fun a => if a =? 1200 then Some 1 else exm0 a.
(** Programs that allocate and then collect. *)
Definition arr_case (e : elem) (nofdyn : Z) (dims : list Z) (k : Z -> hst -> res Z) : res Z :=
  let* s := InitHeap exos arm0 in
  let* q := NEWARR 3000 exos (fun _ => []) [] [] 1200 e (match e with Rec _ => 16 | _ => 8 end) 8 nofdyn dims s [] [] in
  let '(x, s, _, _) := q in k x s.
(** p is POINTER TO ARRAY OF POINTER: NEW(p[i]); a collection with p as the only root; NEW(q).  The result is 1 if q and p[i] are different. *)
Definition keep_elem (i : Z) (x : Z) (s : hst) : res Z :=
  let* q := NEWREC 3000 exos (fun _ => []) [x] [] 1000 s [] [] in
  let '(y, s, _, _) := q in
  let* m := put (hm s) (x + 8 * i) y in
  let* q := GC 3000 (fun _ => []) [x] [] (setmem m s) [] [] in
  let '(s, _, _) := q in
  let* q := NEWREC 3000 exos (fun _ => []) [x] [] 1000 s [] [] in
  let '(z, s, _, _) := q in
  let* y := get (hm s) (x + 8 * i) in
  Ok (if y =? z then 0 else 1).
(** Finding: for an array of pointers without open dimensions (the compiler passes nofdyn = 0, OPV.Mod 729-743 and 830) the table starts at
    offset 8: element 0 is not seen by the collector.  The object p[0] points to is reclaimed and its storage given out again. *)
Theorem C58_fixed_array_refuted : arr_case Ptr 0 [3] (keep_elem 0) = Ok 0 /\ arr_case Ptr 0 [3] (keep_elem 1) = Ok 1 /\ arr_case Ptr 1 [3] (keep_elem 1) = Ok 1.
Proof. vm_compute. auto. Qed.
(** Finding: with two or more open dimensions the second length is taken for a pointer, and the last pointer is not seen: the collector
    follows the number. *)
Theorem C58_two_dimensions_refuted : arr_case Ptr 2 [3; 5] (fun x s => let* q := GC 3000 (fun _ => []) [x] [] s [] [] in Ok 1) = UB.
Proof. vm_compute. reflexivity. Qed.
(** Finding: the number of elements is computed without an overflow check. *)
Theorem C58_count_overflow_refuted : count_elems [2 ^ 32; 2 ^ 32] 1 = UB.
Proof. vm_compute. reflexivity. Qed.
(** Finding: when the operating system has no more memory, NEWREC gives NIL; NEWBLK does not look and writes near address 0. *)
Theorem C58_no_memory_refuted : forall fuel push roots ws sl size s fs calls bs m s' fs' calls', bs = (size + (4 * 8 + 32 - 1)) / 32 * 32 -> put (hm s) sl bs = Ok m ->
  NEWREC fuel (fun _ _ _ => None) push roots ws sl (setmem m s) fs calls = Ok (0, s', fs', calls') -> hm s' (bs - 32) = None ->
  NEWBLK fuel (fun _ _ _ => None) push roots ws sl size s fs calls = UB.
Proof.
  intros fuel push roots ws sl size s fs calls bs m s' fs' calls' E P N M. unfold NEWBLK. rewrite <- E, P, bind_ok, N, bind_ok. unfold put. replace (0 + bs - 3 * 8 - 8) with (bs - 32) by lia. rewrite M. reflexivity.
Qed.
Definition noos : oracle := fun t m size => if (t =? 0)%nat then exos t m size else None.
Example ex_no_memory : match InitHeap noos arm0 with Ok s => NEWBLK 30000 noos (fun _ => []) [] [] 1200 1000000 s [] [] = UB | _ => False end.
Proof. vm_compute. reflexivity. Qed.

(** The hypotheses of [C58_new_array_partial] hold for the initial heap and all three kinds of elements. *)
Example ex_array : arr_case (Rec 1000) 1 [2] (fun x s => let* a := get (hm s) x in let* t := get (hm s) (x - 8) in let* o := get (hm s) (t + 8) in let* o2 := get (hm s) (t + 16) in Ok (a + 100 * o + 10000 * o2)) = Ok (2 + 100 * 8 + 10000 * 16).
Proof. vm_compute. reflexivity. Qed.
Example ex_array_hypotheses : exists s L ls, InitHeap exos arm0 = Ok s /\ hinv s L ls /\ hm s 1200 <> None /\ ~ inside L 1200 /\ (forall b k, In b (blocks L) -> 0 <= k <= zlen (bofs b) + 1 -> btag b + 8 * k <> 1200) /\
  elem_ok s L 1200 8 1 NoPtr [] /\ elem_ok s L 1200 8 1 Ptr [0] /\ elem_ok s L 1200 16 1 (Rec 1000) [0; 8].
Proof.
  assert (R : exos O arm0 256024 = Some (1048576, fun a => a)).
  { unfold exos. cbv zeta. replace (roomy arm0 (1048576 * (Z.of_nat 0 + 1)) (Z.to_nat 256024)) with true by (vm_compute; reflexivity). reflexivity. }
  destruct (InitHeap_spec exos arm0 exos_honest ltac:(intros c junk E; rewrite R in E; inversion E; subst; lia)) as [N|(s & L & ls & A & HI & Out & _)]; [rewrite R in N; discriminate|].
  assert (X : hm s 1200 = Some 1 /\ ~ inside L 1200) by (apply Out; discriminate). destruct X as [X1 X2].
  exists s, L, ls. split; auto. split; auto. split; [congruence|]. split; auto. split.
  - intros b k B K E. pose proof (ho_tab _ _ _ _ (hi_ok _ _ _ HI) b B) as W. assert (J : exists j, bsz b = 8 * j) by (destruct (block_chunk _ _ _ (ho_placed _ _ _ _ (hi_ok _ _ _ HI)) B) as (c & C1 & C2 & C3 & C4 & (k0 & K1 & K2) & C5 & _ & C6); exists (4 * k0); lia). destruct J as (j & J). pose proof (wf_ofs _ _ (ho_wf _ _ _ _ (hi_ok _ _ _ HI) b B)) as WO. 
    assert (T : forall v, In v (table b) -> exists i, v = 8 * i).
    { intros v [<-|V]; [exists j; lia|]. apply in_app_iff in V. destruct V as [V|[<-|[]]]; [apply (WO v V)|exists (- (zlen (bofs b) + 1)); lia]. }
    assert (G : forall l a q, words (hm s) a l -> 0 <= q < zlen l -> exists v, In v l /\ hm s (a + 8 * q) = Some v).
    { clear. induction l as [|v l IH]; intros a q W Q; [rewrite zlen_nil in Q; lia|]. rewrite zlen_cons in Q. cbn [words] in W. destruct W as [W1 W2]. destruct (Z.eq_dec q 0) as [->|]; [exists v; rewrite Z.mul_0_r, Z.add_0_r; split; auto; left; auto|]. destruct (IH (a + 8) (q - 1) W2 ltac:(lia)) as (u & U1 & U2). exists u. split; [right; auto|]. rewrite <- U2. f_equal. lia. }
    destruct (G (table b) (btag b) k W) as (v & V1 & V2); [unfold table; rewrite zlen_cons, zlen_app, zlen_cons, zlen_nil; lia|]. rewrite E, X1 in V2. destruct (T v V1) as (i & I). inversion V2. lia.
  - split; [reflexivity|]. split; [cbn [elem_ok]; auto|]. cbn [elem_ok].
    assert (Y : forall a, arm0 a <> None -> hm s a = arm0 a /\ ~ inside L a) by (intros a; apply Out).
    split; [cbn [words app]; repeat split; (etransitivity; [apply Y; discriminate|reflexivity])|]. split; [intros k K; change (zlen [0; 8]) with 2 in K; split; [|lia]; assert (k = 0 \/ k = 1 \/ k = 2) as [->|[->| ->]] by lia; apply Y; discriminate|].
    split; [repeat constructor; cbn; lia|]. split; [|exists 2; lia]. intros o [<-|[<-|[]]]; (split; [lia|split; [lia|]]); [exists 0; lia|exists 1; lia].
Qed.
Print Assumptions C58_new_array_partial. Print Assumptions C58_fixed_array_refuted. Print Assumptions C58_two_dimensions_refuted. Print Assumptions C58_count_overflow_refuted. Print Assumptions C58_no_memory_refuted.
