(** Properties C17, C18, C19: the typed reads and writes of Files.  [FileAt f r c p] (CodecProofs): the buffered file f
    holds the byte sequence c and rider r stands at position p; [C17_reachable] shows that every state reached by any
    history of operations is of this form.  [overwrite c p bs] (FilesSpec) is c with bs written over it at p. *)
From Verif Require Import Base ArrZ ArithModel FilesModel FilesSpec FilesProofs FilesProps CodecModel CodecSpec CodecProofs.

(** Every reachable state is a FileAt state: the hypothesis of the theorems below is met by all histories. *)
Theorem C17_reachable : forall c n os, Forall (op_ok n) os ->
  exists s vs a, run (opened (Old c) n) os = Ok (s, vs) /\ asteps (aopened c n) os vs a /\
    forall i r, nth_error (snd s) i = Some r -> FileAt (fst s) r (fst a) (Z.min (rpos r) (zlen (fst a))).
Proof.
  intros c n os H. destruct (opened_sim _ _ n (Inv_Old c)) as [S L].
  destruct (run_sim os _ _ S) as (s & vs & a & E & A & (ids & I & R & _)). { rewrite L. auto. }
  exists s, vs, a. split; auto. split; auto. intros i r Hr. exists ids. split; auto. split; auto.
  rewrite Forall_forall in R. apply R. eapply nth_error_In; eauto.
Qed.
Print Assumptions C17_reachable.

(** ** C17 *)
(** WriteNum writes a well-formed number of at most 10 bytes, the shortest there is, and nothing else. *)
Theorem C17_write : forall rc f r c p x, FileAt f r c p -> in_int 64 x ->
  exists bs f' r', WriteNum rc f r x = Ok (f', r') /\ num_wf bs /\ num_val bs = x /\ zlen bs <= 10 /\
    (forall bs', num_wf bs' -> num_val bs' = x -> zlen bs <= zlen bs') /\
    FileAt f' r' (overwrite c p bs) (p + zlen bs).
Proof.
  intros rc f r c p x F H. unfold in_int in H. change (2 ^ (64 - 1)) with 9223372036854775808 in H.
  destruct (writenum_spec rc 9 11 f r c p x ltac:(lia) F) as (bs & f' & r' & E & B1 & B2 & B3 & B4 & B5).
  { change (64 * 128 ^ Z.of_nat 9) with 590295810358705651712. lia. }
  exists bs, f', r'. conjs.
Qed.
Print Assumptions C17_write.
(** ReadNum reads any well-formed number of at most 10 bytes whose value fits 64 bits; the variable of LEN(x) bytes
    receives it modulo 2^(8*LEN(x)), and the position moves over exactly these bytes. *)
Theorem C17_read : forall f r c p bs lx, FileAt f r c p -> num_wf bs -> zlen bs <= 10 -> in_int 64 (num_val bs) ->
  p + zlen bs <= zlen c -> sub c p (zlen bs) = bs -> lx <= 8 ->
  exists f' r', ReadNum f r lx = Ok (wrap_s (8 * lx) (num_val bs), f', r') /\ FileAt f' r' c (p + zlen bs).
Proof.
  intros f r c p bs lx F W L In Lc Sb Lx. unfold ReadNum.
  destruct (readnum_spec bs 12 f r c p 0 0 F W ltac:(lia) Lc Sb ltac:(lia) ltac:(lia)) as (f' & r' & E & F').
  { change (2 ^ 0) with 1. lia. }
  { change (2 ^ 0) with 1. rewrite Z.mul_1_l, Z.add_0_l. auto. }
  rewrite E. cbn [bind]. unfold Assert. replace (lx <=? 8) with true by lia. cbn [bind].
  change (2 ^ 0) with 1. rewrite Z.mul_1_l, Z.add_0_l. eauto.
Qed.
Print Assumptions C17_read.
(** Write, reposition, read: the number comes back, in every variable it fits in. *)
Theorem C17_roundtrip : forall rc f r c p x lx, FileAt f r c p -> 1 <= lx <= 8 -> in_int (8 * lx) x ->
  exists bs f1 r1 f3 r3, WriteNum rc f r x = Ok (f1, r1) /\ FileAt f1 r1 (overwrite c p bs) (p + zlen bs) /\
    ReadNum (fst (Set_ f1 p)) (snd (Set_ f1 p)) lx = Ok (x, f3, r3) /\ FileAt f3 r3 (overwrite c p bs) (p + zlen bs).
Proof.
  intros rc f r c p x lx F Lx Hx. pose proof (FileAt_range _ _ _ _ F) as Rg.
  assert (H64 : in_int 64 x).
  { unfold in_int in *. assert (2 ^ (8 * lx - 1) <= 2 ^ (64 - 1)) by (apply Z.pow_le_mono_r; lia). lia. }
  destruct (C17_write rc f r c p x F H64) as (bs & f1 & r1 & E1 & B1 & B2 & B3 & _ & F1).
  pose proof (zlen_nonneg _ bs). set (c' := overwrite c p bs) in *.
  assert (L' : zlen c' = Z.max (zlen c) (p + zlen bs)) by (apply zlen_overwrite; auto).
  pose proof (Set_at f1 r1 c' (p + zlen bs) p F1 ltac:(lia)) as F2.
  destruct (C17_read _ _ c' p bs lx F2 B1 B3 ltac:(rewrite B2; auto) ltac:(lia) (sub_overwrite c p bs Rg) ltac:(lia)) as (f3 & r3 & E3 & F3).
  exists bs, f1, r1, f3, r3. split; auto. split; auto. split; auto. rewrite E3, B2. rewrite wrap_s_id; auto. lia.
Qed.
Print Assumptions C17_roundtrip.
(** A number never extends into what follows: of two well-formed numbers at the same place neither is a proper prefix. *)
Theorem C17_prefix_free : forall a b s t, num_wf a -> num_wf b -> a ++ s = b ++ t -> a = b /\ s = t.
Proof.
  induction a as [|x a IH]; intros b s t Ha Hb E; [destruct Ha|]. destruct b as [|y b]; [destruct Hb|].
  cbn [app] in E. inversion E; subst. destruct a as [|x2 a2]; destruct b as [|y2 b2].
  - auto.
  - exfalso. destruct Hb as [Hb _]. cbn [num_wf] in Ha. lia.
  - exfalso. destruct Ha as [Ha _]. cbn [num_wf] in Hb. lia.
  - destruct Ha as [_ Ha]. destruct Hb as [_ Hb]. destruct (IH (y2 :: b2) s t Ha Hb) as [E1 E2]; auto. rewrite E1. auto.
Qed.
Print Assumptions C17_prefix_free.
(** Non-vacuity: -1000000 into a file with content, read back. *)
Example C17_nonvacuous :
  match open_riders (Old [1; 2; 3; 4; 5; 6]) 1 with
  | (f, r :: _) =>
      match WriteNum true f r (-1000000) with
      | Ok (f1, r1) => match ReadNum (fst (Set_ f1 0)) (snd (Set_ f1 0)) 4 with
                       | Ok (v, f2, r2) => v = -1000000 /\ rpos r2 = 3 /\ disk (Close f2) = [192; 251; 66; 4; 5; 6]
                       | _ => False end
      | _ => False end
  | _ => False
  end.
Proof. vm_compute. auto. Qed.
(** The claim "ReadNum is defined on every file" is false: a run of 11 continuation bytes shifts by 70 bits. *)
Theorem C17_overlong_refuted : exists c f r, open_riders (Old c) 1 = (f, [r]) /\ ReadNum f r 8 = UB.
Proof.
  exists (repeat 128 11). destruct (open_riders (Old (repeat 128 11)) 1) as [f rs] eqn:E.
  assert (V : match open_riders (Old (repeat 128 11)) 1 with (f, [r]) => ReadNum f r 8 = UB | _ => False end)
    by (vm_compute; reflexivity).
  rewrite E in V. destruct rs as [|r [|]]; try contradiction. eauto.
Qed.
Print Assumptions C17_overlong_refuted.

(** ** C18 *)
Lemma le_bytes_len : forall n x, zlen (le_bytes n x) = Z.of_nat n.
Proof. induction n as [|n IH]; intro x; cbn [le_bytes]; [reflexivity|]. rewrite zlen_cons, IH. lia. Qed.
Theorem C18_le_val : forall n x, le_val (le_bytes n x) = x mod 256 ^ Z.of_nat n.
Proof.
  induction n as [|n IH]; intro x; cbn [le_bytes le_val].
  - change (256 ^ Z.of_nat 0) with 1. rewrite Z.mod_1_r. reflexivity.
  - rewrite IH, Nat2Z.inj_succ, Z.pow_succ_r by lia. rewrite Z.rem_mul_r by lia. reflexivity.
Qed.
Print Assumptions C18_le_val.

Theorem C18_write_int : forall f r c p x, FileAt f r c p ->
  exists f' r', WriteInt false f r x = Ok (f', r') /\ FileAt f' r' (overwrite c p (le_bytes 2 x)) (p + 2).
Proof.
  intros f r c p x F. unfold WriteInt. rewrite !CHRx_plain, ASHR_ok by lia. cbn [bind]. rewrite CHRx_plain. cbn [bind].
  destruct (WriteBytes_at f r c p [x mod 256; (x / 2 ^ 8) mod 256] 2 F) as (f' & r' & E & F').
  { change (zlen [x mod 256; (x / 2 ^ 8) mod 256]) with 2. lia. }
  exists f', r'. split; auto.
Qed.
Print Assumptions C18_write_int.
Lemma bytes_at : forall f r c p n, FileAt f r c p -> 0 < n -> p + n <= zlen c ->
  exists f' r', ReadBytes f r n n = Ok (sub c p n, f', r') /\ FileAt f' r' c (p + n).
Proof.
  intros f r c p n F Hn L. destruct (ReadBytes_at f r c p n F Hn) as (f' & r' & E & F' & _).
  replace (Z.min n (zlen c - p)) with n in * by lia. eauto.
Qed.
Theorem C18_read_int : forall iw f r c p g a b, FileAt f r c p -> p + 2 <= zlen c -> sub c p 2 = [a; b] ->
  is_byte a -> is_byte b -> length g = 2%nat ->
  exists f' r', ReadInt iw f r g = Ok (wrap_s iw (a + 256 * b), f', r') /\ FileAt f' r' c (p + 2).
Proof.
  intros iw f r c p g a b F L Sb Ha Hb Lg. unfold ReadInt.
  destruct (bytes_at f r c p 2 F ltac:(lia) L) as (f' & r' & E & F'). rewrite E, Sb. cbn [bind].
  rewrite filled_all by (cbn [length]; lia). change (ix [a; b] 1) with b. change (ix [a; b] 0) with a.
  unfold is_byte in *. rewrite ASHL_ok; [|lia|].
  - cbn [bind]. change (2 ^ 8) with 256. rewrite (Z.mul_comm b). eauto.
  - unfold in_int. change (2 ^ 8) with 256. change (2 ^ (64 - 1)) with 9223372036854775808. lia.
Qed.
Print Assumptions C18_read_int.
(** INTEGER of 16 bits: every value comes back. *)
Theorem C18_int_roundtrip : forall f r c p x g, FileAt f r c p -> in_int 16 x -> length g = 2%nat ->
  exists f1 r1 f3 r3, WriteInt false f r x = Ok (f1, r1) /\
    ReadInt 16 (fst (Set_ f1 p)) (snd (Set_ f1 p)) g = Ok (x, f3, r3) /\ FileAt f3 r3 (overwrite c p (le_bytes 2 x)) (p + 2).
Proof.
  intros f r c p x g F Hx Lg. pose proof (FileAt_range _ _ _ _ F) as Rg.
  destruct (C18_write_int f r c p x F) as (f1 & r1 & E1 & F1). set (c' := overwrite c p (le_bytes 2 x)) in *.
  assert (L' : zlen c' = Z.max (zlen c) (p + 2)) by (unfold c'; rewrite zlen_overwrite by auto; reflexivity).
  pose proof (Set_at f1 r1 c' _ p F1 ltac:(lia)) as F2.
  destruct (C18_read_int 16 _ _ c' p g (x mod 256) ((x / 256) mod 256) F2 ltac:(lia)) as (f3 & r3 & E3 & F3); auto.
  { exact (sub_overwrite c p (le_bytes 2 x) Rg). }
  { unfold is_byte. lia. }
  { unfold is_byte. lia. }
  exists f1, r1, f3, r3. split; auto. split; auto. rewrite E3. do 3 f_equal.
  unfold in_int, wrap_s in *. change (2 ^ (16 - 1)) with 32768 in *. change (2 ^ 16) with 65536. lia.
Qed.
Print Assumptions C18_int_roundtrip.
(** INTEGER of 32 bits (component model): negative values do not come back. *)
Theorem C18_int32_refuted : exists f r f1 r1 f3 r3, FileAt f r [] 0 /\ WriteInt false f r (-1) = Ok (f1, r1) /\
  ReadInt 32 (fst (Set_ f1 0)) (snd (Set_ f1 0)) [0; 0] = Ok (65535, f3, r3).
Proof.
  destruct (open_riders (Old []) 1) as [f rs] eqn:E. pose proof (opened_sim _ _ 1 (Inv_Old [])) as S.
  unfold opened in S. rewrite E in S. destruct S as [(ids & I & R & _) L]. cbn [fst snd aopened] in *.
  destruct rs as [|r [|]]; cbn [length] in L; try lia. inversion R; subst.
  assert (F : FileAt f r [] 0).
  { exists ids. split; auto. split; auto. destruct H1. change (zlen []) with 0. unfold rpos. lia. }
  destruct (C18_write_int f r [] 0 (-1) F) as (f1 & r1 & E1 & F1).
  assert (F2 := Set_at f1 r1 _ _ 0 F1 ltac:(cbn; lia)).
  destruct (C18_read_int 32 _ _ _ 0 [0; 0] 255 255 F2) as (f3 & r3 & E3 & F3); try reflexivity; try (cbn; lia); try (unfold is_byte; lia).
  exists f, r, f1, r1, f3, r3. split; auto.
Qed.
Print Assumptions C18_int32_refuted.
(** Compiled with range checks (the bootstrap compiler is), WriteInt stops the program on every value above 255. *)
Theorem C18_int_rangecheck_refuted : forall f r x, 256 <= x -> WriteInt true f r x = Trap (-8).
Proof. intros f r x H. unfold WriteInt, CHRx, CHR_inline, R_inline. replace (x <? 256) with false by lia. reflexivity. Qed.
Print Assumptions C18_int_rangecheck_refuted.

(** LONGINT and SET: four bytes. *)
Theorem C18_write_lint : forall f r c p x, FileAt f r c p ->
  exists f' r', WriteLInt false f r x = Ok (f', r') /\ FileAt f' r' (overwrite c p (le_bytes 4 x)) (p + 4).
Proof.
  intros f r c p x F. unfold WriteLInt. rewrite !CHRx_plain, !ASHR_ok by lia. cbn [bind]. rewrite !CHRx_plain. cbn [bind].
  assert (E : [x mod 256; (x / 2 ^ 8) mod 256; (x / 2 ^ 16) mod 256; (x / 2 ^ 24) mod 256] = le_bytes 4 x).
  { cbn [le_bytes]. rewrite !Z.div_div by lia. reflexivity. }
  rewrite E. destruct (WriteBytes_at f r c p (le_bytes 4 x) 4 F) as (f' & r' & E' & F').
  { rewrite le_bytes_len. lia. }
  exists f', r'. split; auto.
Qed.
Print Assumptions C18_write_lint.
Lemma long4_ok : forall a b c d, is_byte a -> is_byte b -> is_byte c -> is_byte d ->
  long4 [a; b; c; d] = Ok (a + 256 * (b + 256 * (c + 256 * d))).
Proof.
  intros a b c d Ha Hb Hc Hd. unfold long4, is_byte in *.
  change (ix [a; b; c; d] 0) with a. change (ix [a; b; c; d] 1) with b. change (ix [a; b; c; d] 2) with c. change (ix [a; b; c; d] 3) with d.
  rewrite !ASHL_ok; try lia; try (unfold in_int; change (2 ^ (64 - 1)) with 9223372036854775808;
    change (2 ^ 8) with 256; change (2 ^ 16) with 65536; change (2 ^ 24) with 16777216; lia).
  cbn [bind]. f_equal. change (2 ^ 8) with 256. change (2 ^ 16) with 65536. change (2 ^ 24) with 16777216. lia.
Qed.
Theorem C18_read_lint : forall lw f r c p g a b d e, FileAt f r c p -> p + 4 <= zlen c -> sub c p 4 = [a; b; d; e] ->
  is_byte a -> is_byte b -> is_byte d -> is_byte e -> length g = 4%nat ->
  exists f' r', ReadLInt lw f r g = Ok (wrap_s lw (le_val [a; b; d; e]), f', r') /\ FileAt f' r' c (p + 4).
Proof.
  intros lw f r c p g a b d e F L Sb Ha Hb Hd He Lg. unfold ReadLInt.
  destruct (bytes_at f r c p 4 F ltac:(lia) L) as (f' & r' & E & F'). rewrite E, Sb. cbn [bind].
  rewrite filled_all by (cbn [length]; lia). rewrite long4_ok by auto. cbn [bind le_val].
  replace (e + 256 * 0) with e by lia. eauto.
Qed.
Print Assumptions C18_read_lint.
Lemma lint_trip : forall lw f r c p x g, FileAt f r c p -> length g = 4%nat ->
  exists f1 r1 f3 r3, WriteLInt false f r x = Ok (f1, r1) /\
    ReadLInt lw (fst (Set_ f1 p)) (snd (Set_ f1 p)) g = Ok (wrap_s lw (x mod 4294967296), f3, r3) /\
    FileAt f3 r3 (overwrite c p (le_bytes 4 x)) (p + 4).
Proof.
  intros lw f r c p x g F Lg. pose proof (FileAt_range _ _ _ _ F) as Rg.
  destruct (C18_write_lint f r c p x F) as (f1 & r1 & E1 & F1). set (c' := overwrite c p (le_bytes 4 x)) in *.
  assert (L' : zlen c' = Z.max (zlen c) (p + 4)) by (unfold c'; rewrite zlen_overwrite by auto; reflexivity).
  pose proof (Set_at f1 r1 c' _ p F1 ltac:(lia)) as F2.
  destruct (C18_read_lint lw _ _ c' p g (x mod 256) ((x / 256) mod 256) ((x / 256 / 256) mod 256) ((x / 256 / 256 / 256) mod 256)
     F2 ltac:(lia)) as (f3 & r3 & E3 & F3); auto; try (unfold is_byte; apply Z.mod_pos_bound; lia).
  { exact (sub_overwrite c p (le_bytes 4 x) Rg). }
  exists f1, r1, f3, r3. split; auto. split; auto. rewrite E3. do 3 f_equal. f_equal.
  exact (C18_le_val 4 x).
Qed.
Theorem C18_lint_roundtrip : forall f r c p x g, FileAt f r c p -> in_int 32 x -> length g = 4%nat ->
  exists f1 r1 f3 r3, WriteLInt false f r x = Ok (f1, r1) /\
    ReadLInt 32 (fst (Set_ f1 p)) (snd (Set_ f1 p)) g = Ok (x, f3, r3) /\ FileAt f3 r3 (overwrite c p (le_bytes 4 x)) (p + 4).
Proof.
  intros f r c p x g F Hx Lg. destruct (lint_trip 32 f r c p x g F Lg) as (f1 & r1 & f3 & r3 & E1 & E3 & F3).
  exists f1, r1, f3, r3. split; auto. split; auto. rewrite E3. do 3 f_equal.
  unfold in_int, wrap_s in *. change (2 ^ (32 - 1)) with 2147483648 in *. change (2 ^ 32) with 4294967296. lia.
Qed.
Print Assumptions C18_lint_roundtrip.
(** LONGINT of 64 bits: values outside 0 .. 2^32-1 are replaced by their value modulo 2^32, so -1 becomes 4294967295. *)
Theorem C18_lint64 : forall f r c p x g, FileAt f r c p -> length g = 4%nat ->
  exists f1 r1 f3 r3, WriteLInt false f r x = Ok (f1, r1) /\
    ReadLInt 64 (fst (Set_ f1 p)) (snd (Set_ f1 p)) g = Ok (x mod 4294967296, f3, r3) /\
    FileAt f3 r3 (overwrite c p (le_bytes 4 x)) (p + 4).
Proof.
  intros f r c p x g F Lg. destruct (lint_trip 64 f r c p x g F Lg) as (f1 & r1 & f3 & r3 & E1 & E3 & F3).
  exists f1, r1, f3, r3. split; auto. split; auto. rewrite E3. do 3 f_equal.
  apply wrap_s_id; [lia|]. unfold in_int. change (2 ^ (64 - 1)) with 9223372036854775808. lia.
Qed.
Print Assumptions C18_lint64.
Theorem C18_lint64_refuted : exists x, in_int 64 x /\ forall f r c p g, FileAt f r c p -> length g = 4%nat ->
  exists f1 r1 v f3 r3, WriteLInt false f r x = Ok (f1, r1) /\
    ReadLInt 64 (fst (Set_ f1 p)) (snd (Set_ f1 p)) g = Ok (v, f3, r3) /\ v <> x.
Proof.
  exists (-1). split; [unfold in_int; cbn; lia|]. intros f r c p g F Lg.
  destruct (C18_lint64 f r c p (-1) g F Lg) as (f1 & r1 & f3 & r3 & E1 & E3 & _).
  exists f1, r1, ((-1) mod 4294967296), f3, r3. split; auto. split; auto. cbn. lia.
Qed.
Print Assumptions C18_lint64_refuted.
(** SET: the elements 0..31 come back in both data models (lw = sw = 32, or lw = sw = 64). *)
Theorem C18_set_roundtrip : forall lw sw f r c p x g, FileAt f r c p -> length g = 4%nat ->
  lw = 32 /\ sw = 32 \/ lw = 64 /\ sw = 64 -> 0 <= x < 2 ^ 32 ->
  exists f1 r1 f3 r3, WriteSet false lw f r x = Ok (f1, r1) /\
    ReadSet lw sw (fst (Set_ f1 p)) (snd (Set_ f1 p)) g = Ok (x, f3, r3) /\
    FileAt f3 r3 (overwrite c p (le_bytes 4 (wrap_s lw x))) (p + 4).
Proof.
  intros lw sw f r c p x g F Lg Hw Hx. unfold WriteSet, ReadSet.
  destruct (lint_trip lw f r c p (wrap_s lw x) g F Lg) as (f1 & r1 & f3 & r3 & E1 & E3 & F3).
  exists f1, r1, f3, r3. split; auto. split; auto. rewrite E3. cbn [bind]. do 3 f_equal. unfold wrap_s, wrap_u.
  change (2 ^ 32) with 4294967296 in Hx.
  destruct Hw as [[-> ->]|[-> ->]].
  - change (2 ^ (32 - 1)) with 2147483648. change (2 ^ 32) with 4294967296. lia.
  - change (2 ^ (64 - 1)) with 9223372036854775808. change (2 ^ 64) with 18446744073709551616. lia.
Qed.
Print Assumptions C18_set_roundtrip.
Theorem C18_bool_roundtrip : forall f r c p x, FileAt f r c p ->
  exists f1 r1 f3 r3, WriteBool f r x = Ok (f1, r1) /\
    ReadBool (fst (Set_ f1 p)) (snd (Set_ f1 p)) = Ok (x, f3, r3) /\
    FileAt f3 r3 (overwrite c p [if x then 1 else 0]) (p + 1).
Proof.
  intros f r c p x F. pose proof (FileAt_range _ _ _ _ F) as Rg. unfold WriteBool, ReadBool.
  set (b := if x then 1 else 0). destruct (Write_at f r c p b F) as (f1 & r1 & E1 & F1). set (c' := overwrite c p [b]) in *.
  assert (L' : zlen c' = Z.max (zlen c) (p + 1)) by (unfold c'; rewrite zlen_overwrite by auto; reflexivity).
  pose proof (Set_at f1 r1 c' _ p F1 ltac:(lia)) as F2.
  destruct (Read_at _ _ c' p F2 ltac:(lia)) as (f3 & r3 & E3 & F3).
  exists f1, r1, f3, r3. split; auto. rewrite E3. cbn [bind]. split; auto. do 3 f_equal.
  unfold c'. rewrite ix_overwrite by lia. change (zlen [b]) with 1. replace ((p <=? p) && (p <? p + 1)) with true by lia.
  rewrite Z.sub_diag. change (ix [b] 0) with b. unfold b. destruct x; reflexivity.
Qed.
Print Assumptions C18_bool_roundtrip.
(** REAL (n = 4) and LONGREAL (n = 8): byte for byte. *)
Theorem C18_raw_roundtrip : forall f r c p x g, FileAt f r c p -> 0 < zlen x -> length g = length x ->
  exists f1 r1 f3 r3, WriteRaw f r x = Ok (f1, r1) /\
    ReadRaw (zlen x) (fst (Set_ f1 p)) (snd (Set_ f1 p)) g = Ok (x, f3, r3) /\ FileAt f3 r3 (overwrite c p x) (p + zlen x).
Proof.
  intros f r c p x g F Hx Lg. pose proof (FileAt_range _ _ _ _ F) as Rg. unfold WriteRaw, ReadRaw.
  destruct (WriteBytes_at f r c p x (zlen x) F ltac:(lia)) as (f1 & r1 & E1 & F1).
  replace (firstn (Z.to_nat (zlen x)) x) with x in F1 by (unfold zlen; rewrite Nat2Z.id, firstn_all; auto).
  set (c' := overwrite c p x) in *.
  assert (L' : zlen c' = Z.max (zlen c) (p + zlen x)) by (unfold c'; rewrite zlen_overwrite by auto; reflexivity).
  pose proof (Set_at f1 r1 c' _ p F1 ltac:(lia)) as F2.
  destruct (bytes_at _ _ c' p (zlen x) F2 Hx ltac:(lia)) as (f3 & r3 & E3 & F3).
  exists f1, r1, f3, r3. split; auto. rewrite E3. cbn [bind]. split; auto. do 3 f_equal.
  unfold c'. rewrite sub_overwrite by auto. apply filled_all. lia.
Qed.
Print Assumptions C18_raw_roundtrip.
(** The claim "a read at the end of the file gives a defined value" is false: ReadInt then returns whatever the
    uninitialised local array held. *)
Theorem C18_short_read_refuted : forall f r, FileAt f r [] 0 -> forall a b, is_byte a -> is_byte b ->
  exists f' r', ReadInt 16 f r [a; b] = Ok (wrap_s 16 (a + 256 * b), f', r').
Proof.
  intros f r F a b Ha Hb. unfold ReadInt.
  destruct (ReadBytes_at f r [] 0 2 F ltac:(lia)) as (f' & r' & E & _). change (Z.min 2 (zlen [] - 0)) with 0 in E.
  rewrite E. cbn [bind]. change (filled (sub [] 0 0) [a; b]) with [a; b].
  change (ix [a; b] 1) with b. change (ix [a; b] 0) with a. unfold is_byte in *. rewrite ASHL_ok; [|lia|].
  - cbn [bind]. change (2 ^ 8) with 256. rewrite (Z.mul_comm b). eauto.
  - unfold in_int. change (2 ^ 8) with 256. change (2 ^ (64 - 1)) with 9223372036854775808. lia.
Qed.
Print Assumptions C18_short_read_refuted.

(** ** C19 *)
(** WriteString writes the characters before the first 0X, and a 0X. *)
Theorem C19_write : forall f r c p x, FileAt f r c p -> terminated x -> zlen x <= 32767 ->
  exists f' r', WriteString f r x = Ok (f', r') /\
    FileAt f' r' (overwrite c p (str_of x ++ [0])) (p + zlen (str_of x) + 1).
Proof.
  intros f r c p x F T _. unfold WriteString. pose proof (proj1 (terminated_ix x) T) as Tl.
  pose proof (zlen_nonneg _ (str_of x)). destruct (str_of_spec x) as (S1 & S2 & S3).
  rewrite (strlen_spec x (zlen (str_of x))); auto; try lia; [|unfold zlen in *; lia]. cbn [bind].
  destruct (WriteBytes_at f r c p x (zlen (str_of x) + 1) F ltac:(lia)) as (f' & r' & E & F').
  exists f', r'. split; auto. rewrite <- Z.add_assoc.
  replace (str_of x ++ [0]) with (firstn (Z.to_nat (zlen (str_of x) + 1)) x); auto.
  apply ix_ext.
  - rewrite zlen_firstn by lia. rewrite zlen_app. reflexivity.
  - intros j Hj. rewrite zlen_firstn in Hj by lia. rewrite ix_firstn by lia. rewrite ix_app by lia.
    destruct (j <? zlen (str_of x)) eqn:E2.
    + assert (Hs : forall y k, ix (str_of y) (Z.of_nat k) = if Z.of_nat k <? zlen (str_of y) then ix y (Z.of_nat k) else 0).
      { clear. induction y as [|b y IH]; intro k.
        - cbn [str_of]. change (zlen []) with 0. replace (Z.of_nat k <? 0) with false by lia. unfold ix. destruct (Z.to_nat (Z.of_nat k)); reflexivity.
        - cbn [str_of]. destruct (b =? 0) eqn:Eb.
          + unfold ix. rewrite Nat2Z.id. replace (Z.of_nat k <? zlen []) with false by (unfold zlen; cbn [length]; lia). destruct k; reflexivity.
          + destruct k as [|k].
            * rewrite zlen_cons. pose proof (zlen_nonneg _ (str_of y)). replace (Z.of_nat 0 <? 1 + zlen (str_of y)) with true by lia. reflexivity.
            * specialize (IH k). unfold ix in *. rewrite Nat2Z.id in *. cbn [nth]. rewrite zlen_cons. rewrite IH.
              replace (Z.of_nat (S k) <? 1 + zlen (str_of y)) with (Z.of_nat k <? zlen (str_of y)) by lia. reflexivity. }
      specialize (Hs x (Z.to_nat j)). rewrite Z2Nat.id in Hs by lia. rewrite E2 in Hs. auto.
    + replace j with (zlen (str_of x)) by lia. rewrite Z.sub_diag. rewrite S3 by lia. reflexivity.
Qed.
Print Assumptions C19_write.

Lemma str_of_overwrite : forall x s, Forall (fun b => b <> 0) s -> str_of (overwrite x 0 (s ++ [0])) = s.
Proof.
  intros x s N. unfold overwrite. cbn [Z.to_nat firstn app]. generalize (skipn (Z.to_nat (0 + zlen (s ++ [0]))) x). intro t.
  induction N as [|b s Hb N IH]; [reflexivity|]. cbn [app str_of]. replace (b =? 0) with false by lia. f_equal. auto.
Qed.
(** ReadString on a terminated string that fits. *)
Theorem C19_read : forall f r c p s x, FileAt f r c p -> Forall (fun b => b <> 0) s ->
  p + zlen s < zlen c -> sub c p (zlen s) = s -> ix c (p + zlen s) = 0 -> zlen s < zlen x <= 32767 ->
  exists x' f' r', ReadString f r x = Ok (x', f', r') /\ str_of x' = s /\ terminated x' /\ zlen x' = zlen x /\
    FileAt f' r' c (p + zlen s + 1).
Proof.
  intros f r c p s x F N Lc Sb E0 Lx. unfold ReadString.
  destruct (readstring_spec s (S (length x)) f r c p x 0 F N Lc Sb E0 ltac:(lia) ltac:(lia) ltac:(unfold zlen in *; lia)) as (f' & r' & E & F').
  pose proof (zlen_nonneg _ s).
  assert (L' : zlen (overwrite x 0 (s ++ [0])) = zlen x).
  { rewrite zlen_overwrite by lia. rewrite zlen_app. change (zlen [0]) with 1. lia. }
  assert (Es : str_of (overwrite x 0 (s ++ [0])) = s) by (apply str_of_overwrite; auto).
  exists (overwrite x 0 (s ++ [0])), f', r'. split; auto. split; auto. split; [|auto].
  apply terminated_ix. rewrite Es, L'. lia.
Qed.
Print Assumptions C19_read.
Theorem C19_read_at_end : forall f r c p s x, FileAt f r c p -> Forall (fun b => b <> 0) s ->
  p + zlen s = zlen c -> sub c p (zlen s) = s -> zlen s < zlen x <= 32767 ->
  exists x' f' r', ReadString f r x = Ok (x', f', r') /\ str_of x' = s /\ r_eof r' = true /\ FileAt f' r' c (zlen c).
Proof.
  intros f r c p s x F N Lc Sb Lx. unfold ReadString.
  destruct (readstring_eof s (S (length x)) f r c p x 0 F N Lc Sb ltac:(lia) ltac:(lia) ltac:(unfold zlen in *; lia)) as (f' & r' & E & F' & Ef).
  exists (overwrite x 0 (s ++ [0])), f', r'. split; auto. split; auto. apply str_of_overwrite; auto.
Qed.
Print Assumptions C19_read_at_end.
(** Round trip through WriteString, Set, ReadString. *)
Theorem C19_roundtrip : forall f r c p s x, FileAt f r c p -> terminated s -> zlen s <= 32767 -> zlen (str_of s) < zlen x <= 32767 ->
  exists f1 r1 x' f3 r3, WriteString f r s = Ok (f1, r1) /\
    ReadString (fst (Set_ f1 p)) (snd (Set_ f1 p)) x = Ok (x', f3, r3) /\ str_of x' = str_of s /\ terminated x' /\
    FileAt f3 r3 (overwrite c p (str_of s ++ [0])) (p + zlen (str_of s) + 1).
Proof.
  intros f r c p s x F T Ls Lx. pose proof (FileAt_range _ _ _ _ F) as Rg. pose proof (zlen_nonneg _ (str_of s)).
  destruct (C19_write f r c p s F T Ls) as (f1 & r1 & E1 & F1).
  set (t := str_of s) in *. set (c' := overwrite c p (t ++ [0])) in *.
  assert (L1 : zlen (t ++ [0]) = zlen t + 1) by (rewrite zlen_app; reflexivity).
  assert (L' : zlen c' = Z.max (zlen c) (p + zlen t + 1)) by (unfold c'; rewrite zlen_overwrite by auto; lia).
  pose proof (Set_at f1 r1 c' _ p F1 ltac:(lia)) as F2.
  pose proof (sub_overwrite c p (t ++ [0]) Rg) as Sb. fold c' in Sb.
  assert (J : forall j, 0 <= j < zlen t + 1 -> ix c' (p + j) = ix (t ++ [0]) j).
  { intros j Hj. rewrite <- Sb. rewrite L1. rewrite ix_sub by lia. reflexivity. }
  assert (N : Forall (fun b => b <> 0) t).
  { unfold t. clear. induction s as [|b s IH]; cbn [str_of]; [constructor|]. destruct (b =? 0) eqn:E; constructor; auto; lia. }
  destruct (C19_read _ _ c' p t x F2 N ltac:(lia)) as (x' & f3 & r3 & E3 & A & B & C & D); auto.
  - apply ix_ext; [rewrite zlen_sub by lia; lia|]. intros j Hj. rewrite zlen_sub in Hj by lia. rewrite ix_sub by lia.
    rewrite J by lia. rewrite ix_app by lia. replace (j <? zlen t) with true by lia. reflexivity.
  - rewrite J by lia. rewrite ix_app by lia. replace (zlen t <? zlen t) with false by lia. rewrite Z.sub_diag. reflexivity.
  - exists f1, r1, x', f3, r3. auto.
Qed.
Print Assumptions C19_roundtrip.
(** A string that does not fit stops the program with an index trap; the array is not overrun. *)
Lemma readstring_long : forall n fuel f r c p x i, FileAt f r c p -> 0 <= i -> i + Z.of_nat n = zlen x ->
  p + Z.of_nat n <= zlen c -> (forall j, 0 <= j < Z.of_nat n -> ix c (p + j) <> 0) -> (n < fuel)%nat ->
  readstring_loop fuel f r x i = Trap (-2).
Proof.
  induction n as [|n IH]; intros fuel f r c p x i F Hi Lx Lc N Hf; (destruct fuel as [|fuel]; [lia|]); cbn [readstring_loop].
  - pose proof (FileAt_range _ _ _ _ F) as Rg. destruct (Z_lt_dec p (zlen c)) as [Hp|Hp].
    + destruct (Read_at f r c p F Hp) as (f' & r' & E & _). rewrite E. cbn [bind]. rewrite setA_trap by lia. reflexivity.
    + replace p with (zlen c) in F by lia. destruct (Read_end f r c F) as (f' & r' & E & _). rewrite E. cbn [bind].
      rewrite setA_trap by lia. reflexivity.
  - destruct (Read_at f r c p F ltac:(lia)) as (f' & r' & E & F'). rewrite E. cbn [bind]. rewrite setA_ix by lia. cbn [bind].
    pose proof (N 0 ltac:(lia)) as N0. rewrite Z.add_0_r in N0. replace (ix c p =? 0) with false by lia.
    apply (IH fuel f' r' c (p + 1)); auto; try lia.
    + rewrite zlen_set. lia.
    + intros j Hj. replace (p + 1 + j) with (p + (j + 1)) by lia. apply N. lia.
Qed.
Theorem C19_read_too_long : forall f r c p x, FileAt f r c p -> p + zlen x <= zlen c ->
  (forall j, 0 <= j < zlen x -> ix c (p + j) <> 0) -> ReadString f r x = Trap (-2).
Proof.
  intros f r c p x F L N. unfold ReadString. apply (readstring_long (length x) _ f r c p); auto; unfold zlen in *; lia.
Qed.
Print Assumptions C19_read_too_long.

(** ReadLine: the text up to LF, without LF and without one CR before it. *)
Lemma overwrite_prefix : forall x s t j, 0 <= j < zlen s -> ix (overwrite x 0 (s ++ t)) j = ix s j.
Proof.
  intros x s t j Hj. pose proof (zlen_nonneg _ t). pose proof (zlen_nonneg _ x). rewrite ix_overwrite by lia.
  rewrite zlen_app. replace ((0 <=? j) && (j <? 0 + (zlen s + zlen t))) with true by lia. rewrite ix_app by lia.
  replace (j - 0 <? zlen s) with true by lia. f_equal. lia.
Qed.
Lemma str_of_cut : forall x s, Forall (fun b => b <> 0) s -> zlen s < zlen x -> (forall j, 0 <= j < zlen s -> ix x j = ix s j) ->
  ix x (zlen s) = 0 -> str_of x = s.
Proof.
  intros x s N L J E. apply str_of_unique; try lia.
  - intros j Hj. split; [apply J; auto|]. rewrite J by auto. rewrite Forall_forall in N. apply N. unfold ix. apply nth_In.
    unfold zlen in *. lia.
Qed.
Theorem C19_readline : forall f r c p s x, FileAt f r c p -> Forall (fun b => b <> 0 /\ b <> 10) s ->
  p + zlen s < zlen c -> sub c p (zlen s) = s -> ix c (p + zlen s) = 10 -> zlen s < zlen x <= 32767 ->
  exists x' f' r', ReadLine f r x = Ok (x', f', r') /\ str_of x' = strip_cr s /\ terminated x' /\
    FileAt f' r' c (p + zlen s + 1).
Proof.
  intros f r c p s x F N Lc Sb E0 Lx. unfold ReadLine. pose proof (zlen_nonneg _ s) as Ls.
  destruct (readline_spec s 10 (S (length x)) f r c p x 0 F N ltac:(auto) Lc Sb E0 ltac:(lia) ltac:(lia) ltac:(unfold zlen in *; lia)) as (f' & r' & E & F').
  rewrite E. cbn [bind]. set (y := overwrite x 0 (s ++ [10])) in *.
  assert (Ly : zlen y = zlen x).
  { unfold y. rewrite zlen_overwrite by lia. rewrite zlen_app. change (zlen [10]) with 1. lia. }
  assert (Y1 : ix y (zlen s) = 10).
  { unfold y. rewrite ix_overwrite by lia. rewrite zlen_app. change (zlen [10]) with 1.
    replace ((0 <=? zlen s) && (zlen s <? 0 + (zlen s + 1))) with true by lia. rewrite ix_app by lia.
    replace (zlen s - 0 <? zlen s) with false by lia. replace (zlen s - 0 - zlen s) with 0 by lia. reflexivity. }
  assert (Y2 : forall j, 0 <= j < zlen s -> ix y j = ix s j) by (intros; apply overwrite_prefix; auto).
  rewrite getA_ix by lia. cbn [bind]. replace (0 + zlen s + 1 - 1) with (zlen s) by lia. rewrite Y1.
  change (10 =? 10) with true. cbv iota.
  assert (N0 : Forall (fun b => b <> 0) s) by (eapply Forall_impl; [|exact N]; cbv beta; tauto).
  assert (Fin : forall t, 0 <= zlen t <= zlen s -> Forall (fun b => b <> 0) t -> (forall j, 0 <= j < zlen t -> ix t j = ix s j) ->
     str_of (set_nth (Z.to_nat (zlen t)) 0 y) = t /\ terminated (set_nth (Z.to_nat (zlen t)) 0 y)).
  { intros t Lt Nt Jt. assert (Lz : zlen (set_nth (Z.to_nat (zlen t)) 0 y) = zlen x) by (rewrite zlen_set; auto).
    assert (Q : str_of (set_nth (Z.to_nat (zlen t)) 0 y) = t).
    { apply str_of_cut; auto; try lia.
      - intros j Hj. rewrite ix_set by lia. replace (j =? zlen t) with false by lia. rewrite Y2, Jt by lia. auto.
      - rewrite ix_set by lia. rewrite Z.eqb_refl. auto. }
    split; auto. apply terminated_ix. rewrite Q, Lz. lia. }
  assert (Self : str_of (set_nth (Z.to_nat (zlen s)) 0 y) = s /\ terminated (set_nth (Z.to_nat (zlen s)) 0 y)) by (apply Fin; auto; lia).
  destruct (strip_cr_cases s) as [[S1 S2]|(S1 & S2 & S3)].
  - rewrite S1. destruct (zlen s >? 0) eqn:Eg.
    + rewrite getA_ix by lia. cbn [bind]. rewrite Y2 by lia. destruct S2 as [->|S2]; [cbn in Eg; discriminate|].
      replace (ix s (zlen s - 1) =? 13) with false by lia. rewrite setA_ix by lia. cbn [bind].
      exists (set_nth (Z.to_nat (zlen s)) 0 y), f', r'. destruct Self. auto.
    + cbn [bind]. rewrite setA_ix by lia. cbn [bind]. exists (set_nth (Z.to_nat (zlen s)) 0 y), f', r'. destruct Self. auto.
  - set (t := strip_cr s) in *. pose proof (zlen_nonneg _ t). replace (zlen s >? 0) with true by lia.
    rewrite getA_ix by lia. cbn [bind]. rewrite Y2, S3 by lia. change (13 =? 13) with true. cbv iota.
    replace (zlen s - 1) with (zlen t) by lia. rewrite setA_ix by lia. cbn [bind].
    exists (set_nth (Z.to_nat (zlen t)) 0 y), f', r'. split; auto. destruct (Fin t) as [A B]; try lia.
    + rewrite S1 in N0. apply Forall_app in N0. tauto.
    + intros j Hj. rewrite S1. rewrite ix_app by lia. replace (j <? zlen t) with true by lia. auto.
    + auto.
Qed.
Print Assumptions C19_readline.
(** The last line, ended by the end of the file (or a 0X): same text, a CR is kept, and the array needs one element more. *)
Theorem C19_readline_last : forall f r c p s x, FileAt f r c p -> Forall (fun b => b <> 0 /\ b <> 10) s ->
  p + zlen s = zlen c -> sub c p (zlen s) = s -> zlen s + 1 < zlen x <= 32767 ->
  exists x' f' r', ReadLine f r x = Ok (x', f', r') /\ str_of x' = s /\ FileAt f' r' c (zlen c) /\ r_eof r' = true.
Proof.
  intros f r c p s x F N Lc Sb Lx. unfold ReadLine. pose proof (zlen_nonneg _ s) as Ls.
  destruct (readline_eof s (S (length x)) f r c p x 0 F N Lc Sb ltac:(lia) ltac:(lia) ltac:(unfold zlen in *; lia)) as (f' & r' & E & F' & Ef).
  rewrite E. cbn [bind]. set (y := overwrite x 0 (s ++ [0])) in *.
  assert (Ly : zlen y = zlen x).
  { unfold y. rewrite zlen_overwrite by lia. rewrite zlen_app. change (zlen [0]) with 1. lia. }
  assert (Y1 : ix y (zlen s) = 0).
  { unfold y. rewrite ix_overwrite by lia. rewrite zlen_app. change (zlen [0]) with 1.
    replace ((0 <=? zlen s) && (zlen s <? 0 + (zlen s + 1))) with true by lia. rewrite ix_app by lia.
    replace (zlen s - 0 <? zlen s) with false by lia. replace (zlen s - 0 - zlen s) with 0 by lia. reflexivity. }
  assert (N0 : Forall (fun b => b <> 0) s) by (eapply Forall_impl; [|exact N]; cbv beta; tauto).
  rewrite getA_ix by lia. cbn [bind]. replace (0 + zlen s + 1 - 1) with (zlen s) by lia. rewrite Y1.
  change (0 =? 10) with false. cbv iota. replace (0 + zlen s + 1 >? 0) with true by lia.
  rewrite getA_ix by lia. cbn [bind]. replace (0 + zlen s + 1 - 1) with (zlen s) by lia. rewrite Y1.
  change (0 =? 13) with false. cbv iota. rewrite setA_ix by lia. cbn [bind].
  eexists. exists f', r'. split; [reflexivity|]. split; [|auto].
  apply str_of_cut; auto.
  - rewrite zlen_set. lia.
  - intros j Hj. rewrite ix_set by lia. replace (j =? 0 + zlen s + 1) with false by lia. apply overwrite_prefix; auto.
  - rewrite ix_set by lia. replace (zlen s =? 0 + zlen s + 1) with false by lia. auto.
Qed.
Print Assumptions C19_readline_last.
(** The claim "a line of LEN(x)-1 characters can be read" is false for a last line without LF: index trap. *)
Theorem C19_readline_last_refuted : exists c f r x, open_riders (Old c) 1 = (f, [r]) /\
  zlen c < zlen x /\ ReadLine f r x = Trap (-2).
Proof.
  exists [97; 98; 99]. destruct (open_riders (Old [97; 98; 99]) 1) as [f rs] eqn:E.
  assert (V : match open_riders (Old [97; 98; 99]) 1 with (f, [r]) => ReadLine f r [0; 0; 0; 0] = Trap (-2) | _ => False end)
    by (vm_compute; reflexivity).
  rewrite E in V. destruct rs as [|r [|]]; try contradiction. exists f, r, [0; 0; 0; 0]. split; auto. split; auto. cbn. lia.
Qed.
Print Assumptions C19_readline_last_refuted.
Example C19_nonvacuous :
  match open_riders (Old [97; 98; 13; 10; 99; 10]) 1 with
  | (f, [r]) => match ReadLine f r [1; 1; 1; 1] with
                | Ok (x, f, r) => x = [97; 98; 0; 10] /\ rpos r = 4 /\
                    match ReadLine f r [1; 1; 1; 1] with Ok (x, _, r) => x = [99; 0; 1; 1] /\ rpos r = 6 | _ => False end
                | _ => False end
  | _ => False
  end.
Proof. vm_compute. auto. Qed.
