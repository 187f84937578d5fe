(** C77: check sums (ethZlib). *)
From Verif Require Import Base ArrZ CheckSumModel CheckSumSpec CheckSumProofs.

(** The CRC of any piece of any array is that of the polynomial, whatever surrounds the piece; [crc] is 0 at the start, or the result so far. *)
Theorem C77_crc : forall piece before after crc, bytes piece -> in_int 32 crc ->
  exists c, CRC32 crc (before ++ piece ++ after) (zlen before) (zlen piece) = Ok c /\ in_int 32 c /\
    bitlist 32 c = map negb (crc_of (map negb (bitlist 32 crc)) (message piece)).
Proof.
  intros l p q crc B H. rewrite div_serial by (rewrite map_length, bitlist_length; reflexivity). apply crc_ok; auto.
Qed.
Print Assumptions C77_crc.

(** Pieces, one after the other, give the CRC of the whole. *)
Theorem C77_crc_pieces : forall x y bx ax by_ ay b a crc c1, bytes x -> bytes y -> in_int 32 crc ->
  CRC32 crc (bx ++ x ++ ax) (zlen bx) (zlen x) = Ok c1 ->
  CRC32 c1 (by_ ++ y ++ ay) (zlen by_) (zlen y) = CRC32 crc (b ++ (x ++ y) ++ a) (zlen b) (zlen (x ++ y)).
Proof.
  intros x y bx ax by_ ay b a crc c1 Hx Hy Hc E.
  destruct (crc_ok x bx ax crc Hx Hc) as (c & E1 & R1 & M1). rewrite E1 in E. injection E as <-.
  destruct (crc_ok y by_ ay c Hy R1) as (c2 & -> & R2 & M2).
  assert (bytes (x ++ y)) as Hxy by (apply Forall_app; auto).
  destruct (crc_ok (x ++ y) b a crc Hxy Hc) as (c3 & -> & R3 & M3).
  f_equal. apply bitlist_inj; auto. rewrite M2, M3, M1, message_app, serial_app. f_equal. f_equal.
  rewrite map_map. rewrite (map_ext (fun x => negb (negb x)) (fun x => x) negb_involutive), map_id. reflexivity.
Qed.
Print Assumptions C77_crc_pieces.

(** Whatever the rest of the data, a change within four bytes is seen: equal check sums mean equal data. *)
Theorem C77_crc_detects : forall front x y back b1 a1 b2 a2 crc,
  bytes front -> bytes back -> bytes x -> bytes y -> in_int 32 crc -> length x = length y -> (length x <= 4)%nat ->
  CRC32 crc (b1 ++ (front ++ x ++ back) ++ a1) (zlen b1) (zlen (front ++ x ++ back)) =
  CRC32 crc (b2 ++ (front ++ y ++ back) ++ a2) (zlen b2) (zlen (front ++ y ++ back)) -> x = y.
Proof.
  intros front x y back b1 a1 b2 a2 crc Hf Hb Hx Hy Hc L L4 E.
  destruct (crc_ok (front ++ x ++ back) b1 a1 crc) as (c1 & E1 & R1 & M1); [repeat (apply Forall_app; split; auto)|auto|].
  destruct (crc_ok (front ++ y ++ back) b2 a2 crc) as (c2 & E2 & R2 & M2); [repeat (apply Forall_app; split; auto)|auto|].
  rewrite E1, E2 in E. injection E as <-. rewrite M1 in M2. apply map_negb_inj in M2.
  rewrite !message_app, !(serial_app (message front)) in M2.
  apply message_inj; auto. apply burst in M2; auto.
  - apply serial_length. rewrite map_length, bitlist_length. reflexivity.
  - rewrite !message_length, L. reflexivity.
  - rewrite message_length. lia.
Qed.
Print Assumptions C77_crc_detects.

(** Adler-32 is exact for pieces of up to 3854 bytes, and for pieces of any length of bytes up to 115. *)
Theorem C77_adler_partial : forall piece before after a b, bytes piece -> 0 <= a < 65521 -> 0 <= b < 65521 ->
  zlen piece <= 3854 \/ Forall (fun d => d <= 115) piece ->
  Adler32 (packed (a, b)) (before ++ piece ++ after) (zlen before) (zlen piece) = Ok (packed (adler a b piece)).
Proof.
  intros l p q a b B Ha Hb [H|H].
  - apply adler_ok with (m := 255); auto; try lia.
    + eapply Forall_impl; [|exact B]. intros d. unfold is_byte. lia.
    + cbv zeta. pose proof (zlen_nonneg _ l). set (c := Z.min (zlen l) 5552). assert (0 <= c <= 3854) as Hc by lia.
      assert (c * (c + 1) <= 3854 * 3855) by (apply Z.mul_le_mono_nonneg; lia). lia.
  - apply adler_ok with (m := 115); auto; try lia.
    + unfold bytes in B. rewrite Forall_forall in *. intros d I. specialize (B d I). specialize (H d I). unfold is_byte in B. cbv beta in H. lia.
    + cbv zeta. pose proof (zlen_nonneg _ l). set (c := Z.min (zlen l) 5552). assert (0 <= c <= 5552) as Hc by lia.
      assert (c * (c + 1) <= 5552 * 5553) by (apply Z.mul_le_mono_nonneg; lia). lia.
Qed.
Print Assumptions C77_adler_partial.

(** Any sequence of pieces that short gives the check sum of them all. *)
Fixpoint adler_pieces (adler : Z) (l : list (list Z * list Z * list Z)) : res Z :=
  match l with
  | [] => Ok adler
  | (before, piece, after) :: l => let* c := Adler32 adler (before ++ piece ++ after) (zlen before) (zlen piece) in adler_pieces c l
  end.
Theorem C77_adler_pieces_partial : forall l a b, 0 <= a < 65521 -> 0 <= b < 65521 ->
  Forall (fun p => bytes (snd (fst p)) /\ zlen (snd (fst p)) <= 3854) l ->
  adler_pieces (packed (a, b)) l = Ok (packed (adler a b (flat_map (fun p => snd (fst p)) l))).
Proof.
  induction l as [|[[p x] q] l IH]; intros a b Ha Hb F; [reflexivity|].
  apply Forall_cons_iff in F. destruct F as [[Bx Lx] F]. cbn [fst snd] in Bx, Lx. cbn [adler_pieces flat_map fst snd].
  rewrite C77_adler_partial by auto. rewrite bind_ok, adler_app. pose proof (adler_range x a b Ha Hb) as [R1 R2].
  destruct (adler a b x) as [a' b']. apply IH; auto.
Qed.
Print Assumptions C77_adler_pieces_partial.

(** For longer pieces the sums overflow: nmax is meant for unsigned numbers. *)
Theorem C77_adler_refuted : exists piece, bytes piece /\ Adler32 1 piece 0 (zlen piece) = UB.
Proof.
  exists (repeat 255 5552). split.
  - apply Forall_forall. intros d I. apply repeat_spec in I. subst d. unfold is_byte. lia.
  - vm_compute. reflexivity.
Qed.
Print Assumptions C77_adler_refuted.

(** The values everyone knows: the CRC and the Adler-32 sum of "123456789", and of an empty piece. *)
Example digits : list Z := map (fun i => 48 + Z.of_nat i) (seq 1 9).
Example crc_digits : CRC32 0 digits 0 9 = Ok (wrap_s 32 3421780262).
Proof. vm_compute. reflexivity. Qed.
Example crc_spec_digits : bitlist 32 3421780262 = map negb (crc_of (repeat true 32) (message digits)).
Proof. vm_compute. reflexivity. Qed.
Example adler_digits : Adler32 1 digits 0 9 = Ok 152961502 /\ packed (adler 1 0 digits) = 152961502 /\ packed (1, 0) = 1.
Proof. vm_compute. auto. Qed.
Example crc_in_place : CRC32 0 ([7; 7] ++ digits ++ [0]) 2 9 = CRC32 0 digits 0 9.
Proof. vm_compute. reflexivity. Qed.
Example crc_differs : CRC32 0 [1; 2; 3; 4; 5; 6] 0 6 <> CRC32 0 [1; 9; 9; 9; 9; 6] 0 6.
Proof. vm_compute. discriminate. Qed.
