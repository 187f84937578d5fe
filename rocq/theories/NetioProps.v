(** C104: exchange of values. *)
From Verif Require Import Base NetioModel NetioSpec.
Lemma bok : forall A B (a : A) (k : A -> res B), bind (Ok a) k = k a. Proof. reflexivity. Qed.
(** One byte, bits in the opposite order: all 256 values are computed. *)
Definition bitrev (b : Z) : Z := match bit_loop 9 b 0 128 with Ok n => n mod 256 | _ => -1 end.
Definition byte_ok (b : Z) : bool := match bit_loop 9 b 0 128 with Ok n => (0 <=? n) && (n <? 256) | _ => false end && (bitrev (bitrev b) =? b) && (0 <=? bitrev b) && (bitrev b <? 256) && forallb (fun k => Bool.eqb (Z.testbit (bitrev b) (7 - Z.of_nat k)) (Z.testbit b (Z.of_nat k))) (seq 0 8).
Lemma all_bytes : forallb (fun n => byte_ok (Z.of_nat n)) (seq 0 256) = true. Proof. vm_compute. reflexivity. Qed.
Lemma byte_facts : forall b, 0 <= b < 256 -> bit_loop 9 b 0 128 = Ok (bitrev b) /\ bitrev (bitrev b) = b /\ 0 <= bitrev b < 256 /\ forall k, 0 <= k < 8 -> Z.testbit (bitrev b) (7 - k) = Z.testbit b k.
Proof.
  intros b R. pose proof all_bytes as H. rewrite forallb_forall in H. specialize (H (Z.to_nat b) ltac:(apply in_seq; lia)). rewrite Z2Nat.id in H by lia. unfold byte_ok in H. apply andb_prop in H. destruct H as [H H4]. apply andb_prop in H. destruct H as [H H3]. apply andb_prop in H. destruct H as [H H2]. apply andb_prop in H. destruct H as [H0 H1].
  split; [|split; [lia|split; [lia|]]].
  - unfold bitrev. destruct (bit_loop 9 b 0 128) as [n| | |]; try discriminate. rewrite Z.mod_small by lia. reflexivity.
  - intros k K. rewrite forallb_forall in H4. specialize (H4 (Z.to_nat k) ltac:(apply in_seq; lia)). rewrite Z2Nat.id in H4 by lia. apply Bool.eqb_prop in H4. exact H4.
Qed.
Lemma bitswap_map : forall l, Forall (fun b => 0 <= b < 256) l -> BitSwap l = Ok (map bitrev l).
Proof.
  intros l F. induction F as [|b l R F IH]; [reflexivity|]. cbn [BitSwap map]. destruct (byte_facts b R) as (E & _ & R2 & _). rewrite E, bok, IH, bok. rewrite Z.mod_small by lia. reflexivity.
Qed.
Lemma mem4_bytes : forall v, Forall (fun b => 0 <= b < 256) (mem4 v). Proof. intros v. unfold mem4. repeat constructor; apply Z.mod_pos_bound; lia. Qed.
Lemma val4_mem4 : forall v, val4 (mem4 v) = v mod 2 ^ 32.
Proof. intros v. unfold val4, mem4. change (2 ^ 32) with 4294967296. lia. Qed.
Lemma swap4 : forall a b c d, Swap [a; b; c; d] = Ok [d; c; b; a]. Proof. reflexivity. Qed.
Lemma network_mem4 : forall v, rev (mem4 v) = network v.
Proof.
  intros v. unfold mem4, network. cbn [rev app]. change (2 ^ 32) with 4294967296. change (2 ^ 24) with 16777216. change (2 ^ 16) with 65536. change (2 ^ 8) with 256.
  assert (E1 : (v / 256 / 256 / 256) mod 256 = v mod 4294967296 / 16777216) by lia. assert (E2 : (v / 256 / 256) mod 256 = (v mod 4294967296 / 65536) mod 256) by lia. assert (E3 : (v / 256) mod 256 = (v mod 4294967296 / 256) mod 256) by lia. assert (E4 : v mod 256 = (v mod 4294967296) mod 256) by lia. rewrite E1, E2, E3, E4. reflexivity.
Qed.
Definition plain (l : list Z) : stream := {| bytes := l; attached := None |}.
(** Integers travel with the most significant byte first. *)
Theorem C104_int_wire : forall l v, WriteLongInt (plain l) v = Ok (plain (l ++ network v)).
Proof. intros l v. rewrite <- network_mem4. reflexivity. Qed.
(** The elements of a set travel in their order. *)
Theorem C104_set_wire : forall l v, exists w, WriteSet (plain l) v = Ok (plain (l ++ w)) /\ set_wire v w /\ Forall (fun b => 0 <= b < 256) w.
Proof.
  intros l v. exists (map bitrev (mem4 v)). unfold WriteSet, through. cbn [Seek attached plain bytes]. rewrite (bitswap_map _ (mem4_bytes v)), bok. split; [reflexivity|]. split.
  - split; [reflexivity|]. intros e R. assert (K : 0 <= e mod 8 < 8) by (apply Z.mod_pos_bound; lia).
    assert (X : nth (Z.to_nat (e / 8)) (map bitrev (mem4 v)) 0 = bitrev ((v / 2 ^ (8 * (e / 8))) mod 2 ^ 8)).
    { assert (C : e / 8 = 0 \/ e / 8 = 1 \/ e / 8 = 2 \/ e / 8 = 3) by lia. destruct C as [-> | [-> | [-> | ->]]]; cbn [Z.to_nat Pos.to_nat Pos.iter_op nth map mem4 Nat.add].
      - change (2 ^ (8 * 0)) with 1. rewrite Z.div_1_r. reflexivity.
      - reflexivity.
      - change (2 ^ (8 * 2)) with (256 * 256). rewrite Z.div_div by lia. reflexivity.
      - change (2 ^ (8 * 3)) with (256 * 256 * 256). rewrite !Z.div_div by lia. reflexivity. }
    rewrite X. destruct (byte_facts ((v / 2 ^ (8 * (e / 8))) mod 2 ^ 8) ltac:(apply Z.mod_pos_bound; lia)) as (_ & _ & _ & B). rewrite (B _ K). rewrite Z.mod_pow2_bits_low by lia. rewrite Z.div_pow2_bits by lia. f_equal. lia.
  - apply Forall_map. eapply Forall_impl; [|apply mem4_bytes]. cbn. intros b R. apply (byte_facts b R).
Qed.
(** Writing and reading a list of values. *)
Definition write (s : stream) (x : item) : res stream := match x with Byte b => WriteByte s b | Int v => WriteLongInt s v | Set32 v => WriteSet s v | Text t => WriteString s t
  | Flag b => WriteBoolean s b | Short v => WriteShortInt s v | Real m => WriteLongReal s m | Const t => WriteConstString s t end.
Fixpoint write_all (s : stream) (l : list item) : res stream := match l with [] => Ok s | x :: l => let* s := write s x in write_all s l end.
Definition read (n : Z) (s : stream) (x : item) : res (option item * stream) :=
  match x with
  | Byte _ => let* (r, s) := ReadByte s in Ok (option_map Byte r, s)
  | Int _ => let* (r, s) := ReadLongInt s in Ok (option_map Int r, s)
  | Set32 _ => let* (r, s) := ReadSet s in Ok (option_map Set32 r, s)
  | Text _ => let* (r, s) := ReadString s n in Ok (option_map Text r, s)
  | Flag _ => let* (r, s) := ReadBoolean s in Ok (option_map Flag r, s)
  | Short _ => let* (r, s) := ReadShortInt s in Ok (option_map Short r, s)
  | Real _ => let* (r, s) := ReadLongReal s in Ok (option_map Real r, s)
  | Const _ => let* (r, s) := ReadConstString s in Ok (option_map Const r, s)
  end.
(** Reads values of the kinds of the items of [l]. *)
Fixpoint read_all (n : Z) (s : stream) (l : list item) : res (list (option item) * stream) :=
  match l with [] => Ok ([], s) | x :: l => let* (r, s) := read n s x in let* (rs, s) := read_all n s l in Ok (r :: rs, s) end.
Lemma string_trip : forall t n l index acc, Forall (fun c => 0 < c < 256) t -> index + Z.of_nat (length t) < n -> string_loop (t ++ 0 :: l) n index acc = (acc ++ t, l).
Proof.
  induction t as [|c t IH]; intros n l index acc F L; cbn [app string_loop].
  - rewrite app_nil_r. reflexivity.
  - inversion F as [|? ? F1 F2]; subst. cbn [length] in L. replace (c =? 0) with false by lia. cbn [negb]. replace (index + 1 <? n) with true by lia. rewrite IH by (auto; lia). rewrite <- app_assoc. reflexivity.
Qed.
Lemma readn_app : forall t rest, readn (Z.of_nat (length t)) (t ++ rest) = Some (t, rest).
Proof.
  intros t rest. unfold readn. rewrite app_length. replace (Z.of_nat (length t + length rest) <? Z.of_nat (length t)) with false by lia. rewrite Nat2Z.id, firstn_app, skipn_app, Nat.sub_diag, firstn_all, skipn_all, app_nil_r. reflexivity.
Qed.
Lemma before0_all : forall t, ~ In 0 t -> before0 (t ++ [0]) = t.
Proof. induction t as [|c t IH]; intros N; [reflexivity|]. cbn [app before0]. cbn [In] in N. replace (c =? 0) with false by lia. cbn [negb]. rewrite IH by tauto. reflexivity. Qed.
Lemma int_trip : forall v rest, in_int 32 v -> ReadLongInt (plain (rev (mem4 v) ++ rest)) = Ok (Some v, plain rest).
Proof.
  intros v rest R. unfold ReadLongInt, through. cbn [Seek attached plain bytes rev mem4 app read4]. rewrite swap4, !bok. change [v mod 256; (v / 256) mod 256; (v / 256 / 256) mod 256; (v / 256 / 256 / 256) mod 256] with (mem4 v). rewrite val4_mem4.
  assert (E : wrap_s 32 (v mod 2 ^ 32) = v). { unfold wrap_s, in_int in *. change (2 ^ (32 - 1)) with 2147483648 in *. change (2 ^ 32) with 4294967296. lia. } rewrite E. reflexivity.
Qed.
Lemma one_trip : forall n x l rest, exchangeable n x -> exists w, write (plain l) x = Ok (plain (l ++ w)) /\ read n (plain (w ++ rest)) x = Ok (Some x, plain rest).
Proof.
  intros n [b|v|v|t|b|v|m|t] l rest R; cbn [exchangeable] in R.
  - exists [b]. split; reflexivity.
  - exists (rev (mem4 v)). split; [reflexivity|]. unfold read. rewrite int_trip by exact R. reflexivity.
  - exists (map bitrev (mem4 v)). split; [unfold write, WriteSet, through; cbn [Seek attached plain bytes]; rewrite (bitswap_map _ (mem4_bytes v)), bok; reflexivity|].
    pose proof (mem4_bytes v) as M. assert (E : map bitrev (map bitrev (mem4 v)) = mem4 v). { rewrite map_map. rewrite <- (map_id (mem4 v)) at 2. apply map_ext_in. intros b I. rewrite Forall_forall in M. apply (byte_facts b (M b I)). }
    assert (M2 : Forall (fun b => 0 <= b < 256) (map bitrev (mem4 v))) by (apply Forall_map; eapply Forall_impl; [|exact M]; cbn; intros b Q; apply (byte_facts b Q)).
    unfold read, ReadSet, through. cbn [Seek attached plain bytes]. replace (read4 (map bitrev (mem4 v) ++ rest)) with (Some (map bitrev (mem4 v), rest)) by reflexivity. rewrite (bitswap_map _ M2), E, !bok. rewrite val4_mem4, Z.mod_small by exact R. reflexivity.
  - destruct R as [F L]. exists (t ++ [0]). split; [reflexivity|]. unfold read, ReadString, through. cbn [Seek attached plain bytes]. rewrite <- app_assoc. cbn [app]. rewrite string_trip by (auto; lia). reflexivity.
  - exists [if b then 1 else 0]. destruct b; split; reflexivity.
  - exists [v mod 256]. split; [reflexivity|]. unfold read, ReadShortInt, through. cbn [Seek attached plain bytes app answer bind option_map].
    assert (E : wrap_s 8 (v mod 256) = v). { unfold wrap_s, in_int in *. change (2 ^ (8 - 1)) with 128 in *. change (2 ^ 8) with 256. lia. } rewrite E. reflexivity.
  - exists m. split; [reflexivity|]. unfold read, ReadLongReal, through. cbn [Seek attached plain bytes]. change 8 with (Z.of_nat 8). rewrite <- R, readn_app. reflexivity.
  - destruct R as [L N]. assert (I : in_int 32 (Z.of_nat (length t))) by (unfold in_int; change (2 ^ (32 - 1)) with (2 ^ 31); lia).
    exists (rev (mem4 (Z.of_nat (length t))) ++ t). split.
    + cbn [write]. unfold WriteConstString, through. cbn [Seek attached plain bytes]. replace (WriteLongInt (plain l) (Z.of_nat (length t))) with (Ok (plain (l ++ rev (mem4 (Z.of_nat (length t)))))) by reflexivity. rewrite bok. cbn [bytes plain with_bytes]. rewrite <- app_assoc. reflexivity.
    + unfold read, ReadConstString, through. cbn [Seek attached plain]. rewrite <- app_assoc. change {| bytes := ?x; attached := None |} with (plain x). rewrite int_trip by exact I. cbn [bind bytes plain]. rewrite readn_app.
      destruct (Z.geb_spec (Z.of_nat (length t)) 512) as [C|C]; [reflexivity|]. replace (Z.of_nat (length t) <? 0) with false by lia. rewrite before0_all by (apply N; lia). reflexivity.
Qed.
(** Whatever is written is read again, value by value, and nothing more is consumed. *)
Theorem C104_exchange_partial : forall n l before rest, Forall (exchangeable n) l -> exists w, write_all (plain before) l = Ok (plain (before ++ w)) /\ read_all n (plain (w ++ rest)) l = Ok (map Some l, plain rest).
Proof.
  intros n l. induction l as [|x l IH]; intros before rest F.
  - exists []. rewrite app_nil_r. split; reflexivity.
  - inversion F as [|? ? F1 F2]; subst. destruct (one_trip n x before rest F1) as (w1 & W1 & _). destruct (IH (before ++ w1) rest F2) as (w2 & W2 & R2). destruct (one_trip n x before (w2 ++ rest) F1) as (w1' & W1' & R1').
    assert (w1' = w1). { rewrite W1 in W1'. injection W1' as Q. apply app_inv_head in Q. congruence. } subst w1'.
    exists (w1 ++ w2). cbn [write_all read_all map]. rewrite W1, bok, W2. split; [rewrite app_assoc; reflexivity|]. rewrite <- app_assoc, R1'. cbn [bind]. rewrite R2. reflexivity.
Qed.
(** A text that does not fit is cut, the stream is read up to its end all the same. *)
Theorem C104_long_text : forall n t rest, 0 < n -> Forall (fun c => 0 < c < 256) t -> ReadString (plain (t ++ 0 :: rest)) n = Ok (Some (firstn (Z.to_nat (n - 1)) t), plain rest).
Proof.
  intros n t rest N F. unfold ReadString, through. cbn [Seek attached plain bytes].
  assert (H : forall t i acc, Forall (fun c => 0 < c < 256) t -> 0 <= i < n -> string_loop (t ++ 0 :: rest) n i acc = (acc ++ firstn (Z.to_nat (n - 1 - i)) t, rest)).
  { clear t F. induction t as [|c t IH]; intros i acc F R; cbn [app string_loop].
    - rewrite firstn_nil, app_nil_r. reflexivity.
    - inversion F as [|? ? F1 F2]; subst. replace (c =? 0) with false by lia. cbn [negb]. destruct (Z.ltb_spec (i + 1) n) as [C|C].
      + rewrite IH by (auto; lia). replace (Z.to_nat (n - 1 - i)) with (S (Z.to_nat (n - 1 - (i + 1)))) by lia. cbn [firstn]. rewrite <- app_assoc. reflexivity.
      + rewrite IH by (auto; lia). replace (Z.to_nat (n - 1 - i)) with 0%nat by lia. reflexivity. }
  rewrite H by (auto; lia). replace (n - 1 - 0) with (n - 1) by lia. reflexivity.
Qed.
(** Too few bytes for a value are noticed. *)
Theorem C104_short : forall l, (length l < 4)%nat -> ReadLongInt (plain l) = Ok (None, plain []) /\ ReadSet (plain l) = Ok (None, plain []).
Proof. intros l L. destruct l as [|a [|b [|c [|d l]]]]; cbn [length] in L; try lia; split; reflexivity. Qed.
(** An interface that is attached to a stream is never used: the first call with such a stream follows NIL. *)
Theorem C104_interface_refuted : forall s i x n, write (AttachInterface s (Some i)) x = UB /\ read n (AttachInterface s (Some i)) x = UB.
Proof. intros s i x n. destruct x; split; reflexivity. Qed.
(** A short constant string with a zero does not arrive as it was sent. *)
Theorem C104_const_refuted : exists t w, write (plain []) (Const t) = Ok (plain w) /\ Z.of_nat (length t) < 512 /\ read 1 (plain w) (Const t) = Ok (Some (Const [65]), plain []) /\ t <> [65].
Proof. exists [65; 0; 66], [0; 0; 0; 3; 65; 0; 66]. split; [vm_compute; reflexivity|]. split; [cbn; lia|]. split; [vm_compute; reflexivity|discriminate]. Qed.
(** A length that is negative or more than there is, is reported. *)
Theorem C104_bad_length : forall v l, in_int 32 v -> v < 0 \/ Z.of_nat (length l) < v -> exists rest, ReadConstString (plain (network v ++ l)) = Ok (None, plain rest).
Proof.
  intros v l I H. rewrite <- network_mem4. unfold ReadConstString, through. cbn [Seek attached plain]. change {| bytes := ?x; attached := None |} with (plain x). rewrite int_trip by exact I. cbn [bind bytes plain].
  destruct (Z.geb_spec v 512) as [C|C].
  - unfold readn. replace (Z.of_nat (length l) <? v) with true by lia. eexists. reflexivity.
  - destruct (Z.ltb_spec v 0) as [C2|C2]; [eexists; reflexivity|]. unfold readn. replace (Z.of_nat (length l) <? v) with true by lia. eexists. reflexivity.
Qed.
(** Without the interface, the stream is as before. *)
Theorem C104_detach : forall s i, AttachInterface (AttachInterface s i) None = plain (bytes s). Proof. reflexivity. Qed.
(** Values that meet the hypotheses. *)
Example C104_met : Forall (exchangeable 4) [Int (-2); Byte 255; Set32 (2 ^ 31 + 5); Text [65; 66]; Text []; Int 66051; Flag true; Short (-3); Real [1; 2; 3; 4; 5; 6; 7; 8]; Const [67; 68]] /\
  write_all (plain []) [Int (-2); Byte 255; Set32 (2 ^ 31 + 5); Text [65; 66]; Text []; Int 66051; Flag true; Short (-3); Real [1; 2; 3; 4; 5; 6; 7; 8]; Const [67; 68]] = Ok (plain [255; 255; 255; 254; 255; 160; 0; 0; 1; 65; 66; 0; 0; 0; 1; 2; 3; 1; 253; 1; 2; 3; 4; 5; 6; 7; 8; 0; 0; 0; 2; 67; 68]).
Proof. split; [|vm_compute; reflexivity]. repeat constructor; cbn; try lia. Qed.

Print Assumptions C104_int_wire.
Print Assumptions C104_set_wire.
Print Assumptions C104_exchange_partial.
Print Assumptions C104_long_text.
Print Assumptions C104_short.
Print Assumptions C104_interface_refuted.
Print Assumptions C104_detach.
Print Assumptions C104_const_refuted.
Print Assumptions C104_bad_length.
