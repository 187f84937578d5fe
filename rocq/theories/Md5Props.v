(** C78: message digests (ethMD5). *)
From Verif Require Import Base ArrZ Md5Model Md5Spec Md5Proofs.

(** What a program does with a context: single characters, or the first characters of an array; with the content of the local variables at that time. *)
Inductive op := OWrite (loc : list Z) (ch : Z) | OBytes (loc : list Z) (b : list Z) (len : Z).
Definition ok_op (o : op) : Prop :=
  match o with
  | OWrite loc ch => length loc = 16%nat /\ is_byte ch
  | OBytes loc b len => length loc = 16%nat /\ bytes b /\ b <> [] /\ 0 <= len <= zlen b
  end.
Definition text (o : op) : list Z := match o with OWrite _ ch => [ch] | OBytes _ b len => firstn (Z.to_nat len) b end.
Fixpoint perform (strict : bool) (c : context) (l : list op) : res context :=
  match l with
  | [] => Ok c
  | OWrite loc ch :: l => let* c := Write strict loc c ch in perform strict c l
  | OBytes loc b len :: l => let* c := WriteBytes strict loc c b len in perform strict c l
  end.

(** However a message is cut and written, the digest is that of RFC 1321, if additions wrap around. *)
Theorem C78_digest_partial : forall l loc, Forall ok_op l -> length loc = 16%nat -> zlen (flat_map text l) < 2 ^ 29 ->
  (let* c := perform false New l in Close false loc c) = Ok (md5 (flat_map text l)).
Proof.
  intros l loc F Ll Hm.
  assert (forall l c m, Forall ok_op l -> Rel c m -> bytes m ->
    exists c', perform false c l = Ok c' /\ Rel c' (m ++ flat_map text l) /\ bytes (m ++ flat_map text l)) as P.
  { clear. induction l as [|o l IH]; intros c m F R B; cbn [perform flat_map].
    - exists c. rewrite app_nil_r. auto.
    - apply Forall_cons_iff in F. destruct F as [Ho F]. destruct o as [loc ch|loc b len]; cbn [ok_op text] in *.
      + destruct Ho as [Ll Hc]. destruct (Write_ok loc c m ch Ll R B Hc) as (c' & -> & R'). rewrite bind_ok.
        assert (bytes (m ++ [ch])) as B' by (apply Forall_app; split; auto).
        destruct (IH c' _ F R' B') as (c2 & E & R2 & B2). exists c2. rewrite app_assoc. auto.
      + destruct Ho as (Ll & Hb & Ne & Hlen). set (x := firstn (Z.to_nat len) b).
        assert (b = x ++ skipn (Z.to_nat len) b) as Eb by (symmetry; apply firstn_skipn).
        assert (zlen x = len) as Lx by (apply zlen_firstn; lia).
        assert (bytes x) as Bx. { rewrite Eb in Hb. apply Forall_app in Hb. tauto. }
        destruct (WriteBytes_ok loc c m x (skipn (Z.to_nat len) b) Ll R B Bx) as (c' & E & R'); [rewrite <- Eb; auto|].
        rewrite <- Eb, Lx in E. rewrite E, bind_ok.
        assert (bytes (m ++ x)) as B' by (apply Forall_app; split; auto).
        destruct (IH c' _ F R' B') as (c2 & E2 & R2 & B2). exists c2. rewrite app_assoc. auto. }
  destruct (P l New [] F New_ok) as (c & E & R & B); [constructor|]. rewrite E, bind_ok. apply Close_ok; auto.
Qed.
Print Assumptions C78_digest_partial.

(** By the rules of C nothing is defined, not even for the empty message: the additions overflow. *)
Theorem C78_digest_refuted : exists l loc, Forall ok_op l /\ length loc = 16%nat /\
  (let* c := perform true New l in Close true loc c) = UB.
Proof. exists [], (repeat 0 16). split; [constructor|]. split; [reflexivity|]. vm_compute. reflexivity. Qed.
Print Assumptions C78_digest_refuted.

(** The digest as a string: 32 lower-case hexadecimal digits and the terminator, whatever the array held. *)
Definition hexdigits : list Z := [48; 49; 50; 51; 52; 53; 54; 55; 56; 57; 97; 98; 99; 100; 101; 102].
Theorem C78_string : forall digest str, bytes digest -> length digest = 16%nat -> zlen str >= 33 ->
  exists s rest, ToString digest str = Ok (s ++ 0 :: rest) /\ length (s ++ 0 :: rest) = length str /\
    s = flat_map (fun d => [ix hexdigits (d / 16); ix hexdigits (d mod 16)]) digest.
Proof.
  intros digest str B L Ls. unfold ToString.
  destruct (split_len str 32) as (old & post & -> & Lo); [unfold zlen in Ls; lia|].
  destruct post as [|o post]; [unfold zlen in Ls; rewrite app_length in Ls; cbn [length] in Ls; lia|].
  pose proof (hex_ok 16 digest _ L [] [] old (o :: post) ltac:(lia) eq_refl eq_refl) as E.
  cbn [app] in E. change (zlen (@nil Z)) with 0 in E. rewrite E, bind_ok. clear E.
  assert (forall d l, length (flat_map (fun d : Z => [HexDigit (d / 16); HexDigit (d mod 16)]) l) = d -> d = (2 * length l)%nat) as LL.
  { intros d l <-. clear. induction l as [|x l IH]; cbn [flat_map app length]; lia. }
  specialize (LL _ digest eq_refl). set (s := flat_map _ digest) in *.
  replace 32 with (zlen s) by (unfold zlen; rewrite LL, L; reflexivity). rewrite setA_at.
  exists s, post. split; [reflexivity|]. split; [rewrite !app_length; cbn [length]; lia|].
  unfold s. clear - B. induction digest as [|d digest IH]; [reflexivity|].
  apply Forall_cons_iff in B. destruct B as [Hd B]. cbn [flat_map]. rewrite (IH B). f_equal. clear IH.
  assert (forall k, 0 <= k < 16 -> HexDigit k = ix hexdigits k) as X.
  { intros k Hk. assert (In k (map Z.of_nat (seq 0 16))) as I by (apply in_map_iff; exists (Z.to_nat k); split; [lia|apply in_seq; lia]).
    cbn in I. repeat (destruct I as [<- | I]; [reflexivity|]). destruct I. }
  unfold is_byte in Hd. assert (0 <= d / 16 < 16) by (split; [apply Z.div_pos; lia|apply Z.div_lt_upper_bound; lia]).
  assert (0 <= d mod 16 < 16) by (apply Z.mod_pos_bound; lia). rewrite !X by auto. reflexivity.
Qed.
Print Assumptions C78_string.

(** The test of RFC 1321 for "abc", cut in two ways. *)
Example abc : list Z := [144; 1; 80; 152; 60; 210; 79; 176; 214; 150; 63; 125; 40; 225; 127; 114].
Example md5_abc : md5 [97; 98; 99] = abc.
Proof. vm_compute. reflexivity. Qed.
Example code_abc : (let* c := perform false New [OWrite (repeat 7 16) 97; OBytes (repeat 8 16) [98; 99; 100] 2] in Close false (repeat 9 16) c) = Ok abc.
Proof. vm_compute. reflexivity. Qed.
Example code_long : (let* c := perform false New [OBytes (repeat 8 16) (repeat 65 130) 129; OWrite (repeat 7 16) 65] in Close false (repeat 9 16) c) =
  (let* c := perform false New [OBytes (repeat 8 16) (repeat 65 130) 130] in Close false (repeat 9 16) c).
Proof. vm_compute. reflexivity. Qed.
