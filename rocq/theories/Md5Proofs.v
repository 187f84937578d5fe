(** Proofs about MD5. *)
From Verif Require Import Base ArrZ Md5Model Md5Spec.

Definition u (x : Z) : Z := wrap_u 32 x.
Lemma u_range : forall x, 0 <= u x < W.
Proof. intro x. unfold u, W. apply (wrap_u_range 32 x). lia. Qed.
Lemma u_mod : forall x, u x = x mod W.
Proof. reflexivity. Qed.
Lemma u_small : forall x, 0 <= x < W -> u x = x.
Proof. intros. apply Z.mod_small. auto. Qed.
Lemma u_s : forall x, u (wrap_s 32 x) = u x.
Proof.
  intros. unfold u, wrap_u, wrap_s. rewrite Zminus_mod, Z.mod_mod, <- Zminus_mod by lia. f_equal. ring.
Qed.
Lemma u_add : forall x y, u (wrap_s 32 (x + y)) = (u x + u y) mod W.
Proof. intros. rewrite u_s. rewrite u_mod. unfold u, wrap_u. apply Zplus_mod. Qed.
Lemma u_bits_high : forall x i, 32 <= i -> Z.testbit (u x) i = false.
Proof. intros. unfold u, wrap_u. apply Z.mod_pow2_bits_high. lia. Qed.
Lemma small_high : forall x i, 0 <= x < W -> 32 <= i -> Z.testbit x i = false.
Proof. intros x i R Hi. rewrite <- (u_small x R). apply u_bits_high. auto. Qed.
Lemma u_of_bits : forall x, (forall i, 32 <= i -> Z.testbit x i = false) -> u x = x.
Proof.
  intros x E. apply Z.bits_inj'. intros i Hi. destruct (Z_lt_ge_dec i 32).
  - unfold u, wrap_u. apply Z.mod_pow2_bits_low. lia.
  - rewrite u_bits_high, E by lia. reflexivity.
Qed.
Lemma compl_not : forall x, 0 <= x < W -> compl x = not_ x.
Proof.
  intros x R. unfold compl, not_. change 4294967295 with (Z.ones 32). change (W - 1) with (Z.ones 32).
  rewrite Z.sub_nocarry_ldiff.
  - apply Z.bits_inj'. intros i Hi. rewrite Z.lxor_spec, Z.ldiff_spec. destruct (Z_lt_ge_dec i 32).
    + rewrite Z.ones_spec_low by lia. destruct (Z.testbit x i); reflexivity.
    + rewrite Z.ones_spec_high, small_high by lia. reflexivity.
  - apply Z.bits_inj'. intros i Hi. rewrite Z.ldiff_spec, Z.bits_0. destruct (Z_lt_ge_dec i 32).
    + rewrite Z.ones_spec_low by lia. apply andb_false_r.
    + rewrite small_high by lia. reflexivity.
Qed.
Lemma compl_high : forall x i, 0 <= x < W -> 32 <= i -> Z.testbit (compl x) i = false.
Proof. intros x i R Hi. unfold compl. change 4294967295 with (Z.ones 32). rewrite Z.lxor_spec, small_high, Z.ones_spec_high by (auto; lia). reflexivity. Qed.
Ltac bits_high := rewrite ?Z.lor_spec, ?Z.lxor_spec, ?Z.land_spec, ?Z.lor_spec, ?u_bits_high, ?compl_high by (auto using u_range; lia);
  rewrite ?andb_false_r, ?andb_false_l; reflexivity.
Lemma F1_ok : forall x y z, u (F1 x y z) = F (u x) (u y) (u z).
Proof.
  intros. unfold F1, int_of. rewrite u_s. change set_of with u. unfold F. rewrite <- compl_not by apply u_range.
  apply u_of_bits. intros i Hi. bits_high.
Qed.
Lemma F2_ok : forall x y z, u (F2 x y z) = G (u x) (u y) (u z).
Proof.
  intros. unfold F2, int_of. rewrite u_s. change set_of with u. unfold G. rewrite <- compl_not by apply u_range.
  apply u_of_bits. intros i Hi. bits_high.
Qed.
Lemma F3_ok : forall x y z, u (F3 x y z) = H (u x) (u y) (u z).
Proof.
  intros. unfold F3, int_of. rewrite u_s. change set_of with u. unfold H.
  apply u_of_bits. intros i Hi. bits_high.
Qed.
Lemma F4_ok : forall x y z, u (F4 x y z) = I (u x) (u y) (u z).
Proof.
  intros. unfold F4, int_of. rewrite u_s. change set_of with u. unfold I. rewrite <- compl_not by apply u_range.
  apply u_of_bits. intros i Hi. bits_high.
Qed.
Lemma ROT_ok : forall x s, 0 < s < 32 -> u (ROT x s) = rotate (u x) s.
Proof.
  intros x s Hs. unfold ROT. rewrite u_s. unfold rotate. fold (u x). pose proof (u_range x) as R. set (y := u x) in *.
  rewrite <- Z.shiftl_mul_pow2, <- Z.shiftr_div_pow2 by lia. fold (u (Z.shiftl y s)). rewrite <- u_mod.
  assert (forall i, 32 <= i -> Z.testbit (Z.shiftr y (32 - s)) i = false) as HR.
  { intros i Hi. rewrite Z.shiftr_spec by lia. apply small_high; auto. lia. }
  rewrite u_of_bits by (intros i Hi; rewrite Z.lor_spec, u_bits_high, HR by lia; reflexivity).
  rewrite Z.add_nocarry_lxor.
  - apply Z.bits_inj'. intros i Hi. rewrite Z.lor_spec, Z.lxor_spec.
    destruct (Z_lt_ge_dec i s).
    + replace (Z.testbit (u (Z.shiftl y s)) i) with false; [destruct (Z.testbit (Z.shiftr y (32 - s)) i); reflexivity|].
      unfold u, wrap_u. rewrite Z.mod_pow2_bits_low by lia. rewrite Z.shiftl_spec by lia. rewrite Z.testbit_neg_r by lia. reflexivity.
    + replace (Z.testbit (Z.shiftr y (32 - s)) i) with false; [destruct (Z.testbit (u (Z.shiftl y s)) i); reflexivity|].
      rewrite Z.shiftr_spec by lia. symmetry. apply small_high; auto. lia.
  - apply Z.bits_inj'. intros i Hi. rewrite Z.land_spec, Z.bits_0. destruct (Z_lt_ge_dec i s).
    + replace (Z.testbit (u (Z.shiftl y s)) i) with false; [reflexivity|].
      unfold u, wrap_u. rewrite Z.mod_pow2_bits_low by lia. rewrite Z.shiftl_spec by lia. rewrite Z.testbit_neg_r by lia. reflexivity.
    + replace (Z.testbit (Z.shiftr y (32 - s)) i) with false; [apply andb_false_r|].
      rewrite Z.shiftr_spec by lia. symmetry. apply small_high; auto. lia.
Qed.

(** * The 64 steps *)
Definition call (i : Z) : Z * Z * Z * Z := (i / 16 + 1, index i, wrap_s 32 (constant (i + 1)), count i).
Lemma calls_ok : calls = map call numbers.
Proof. vm_compute. reflexivity. Qed.
Lemma func_ok : forall i x y z, 0 <= i < 64 -> u (func (i / 16 + 1) x y z) = function i (u x) (u y) (u z).
Proof.
  intros i x y z Hi. unfold func, function.
  Ltac Zify.zify_post_hook ::= Z.to_euclidean_division_equations.
  destruct (i <? 16) eqn:E1; [replace (i / 16 + 1 =? 1) with true by lia; apply F1_ok|].
  replace (i / 16 + 1 =? 1) with false by lia.
  destruct (i <? 32) eqn:E2; [replace (i / 16 + 1 =? 2) with true by lia; apply F2_ok|].
  replace (i / 16 + 1 =? 2) with false by lia.
  destruct (i <? 48) eqn:E3; [replace (i / 16 + 1 =? 3) with true by lia; apply F3_ok|].
  replace (i / 16 + 1 =? 3) with false by lia. apply F4_ok.
Qed.
Lemma index_range : forall i, 0 <= i < 64 -> 0 <= index i < 16.
Proof. intros i Hi. unfold index. destruct (i <? 16) eqn:?, (i <? 32) eqn:?, (i <? 48) eqn:?; lia. Qed.
Ltac Zify.zify_post_hook ::= idtac.
Lemma count_range : forall i, 0 <= i < 64 -> 0 < count i < 32.
Proof.
  intros i Hi. unfold count. assert (0 <= i mod 4 < 4) as R by (apply Z.mod_pos_bound; lia).
  assert (i mod 4 = 0 \/ i mod 4 = 1 \/ i mod 4 = 2 \/ i mod 4 = 3) as [-> | [-> | [-> | ->]]] by lia;
    destruct (i <? 16), (i <? 32), (i <? 48); split; reflexivity.
Qed.
Lemma sum_u : forall a f x c, ((a + f) mod W + (x + u c) mod W) mod W = (a + f + x + c) mod W.
Proof.
  intros. rewrite <- Zplus_mod. change (u c) with (c mod W). rewrite Z.add_assoc, Zplus_mod_idemp_r. reflexivity.
Qed.
Lemma ix_map : forall (f : Z -> Z) l i, 0 <= i < zlen l -> ix (map f l) i = f (ix l i).
Proof.
  intros f l i Hi. unfold ix. rewrite (nth_indep _ 0 (f 0)) by (rewrite map_length; unfold zlen in Hi; lia). apply map_nth.
Qed.

Lemma run_ok : forall l block w x y z, zlen block = 16 -> Forall (fun i => 0 <= i < 64) l ->
  exists w' x' y' z', run false (map call l) block w x y z = Ok (w', x', y', z') /\
    (u w', u x', u y', u z') = fold_left (step (map u block)) l (u w, u x, u y, u z).
Proof.
  induction l as [|i l IH]; intros block w x y z L Hl; cbn [map run fold_left].
  - exists w, x, y, z. auto.
  - apply Forall_cons_iff in Hl. destruct Hl as [Hi Hl]. unfold call at 1.
    pose proof (index_range i Hi) as RI.
    rewrite getA_ix by lia. rewrite bind_ok. unfold STEP, add. rewrite !bind_ok.
    edestruct (IH block) as (w' & x' & y' & z' & E & M); [exact L|exact Hl|].
    exists w', x', y', z'. split; [exact E|]. rewrite M. clear M E. f_equal. unfold step.
    rewrite u_add, ROT_ok by (apply count_range; auto). rewrite !u_add, func_ok, u_s by auto.
    rewrite ix_map by lia. rewrite sum_u, (Z.add_comm _ (u x)). reflexivity.
Qed.

Definition uu (b : list Z) (st : Z * Z * Z * Z) : Prop :=
  exists w x y z, b = [w; x; y; z] /\ (u w, u x, u y, u z) = st.
Lemma numbers_range : Forall (fun i => 0 <= i < 64) numbers.
Proof. apply Forall_forall. intros i Hi. unfold numbers in Hi. apply in_map_iff in Hi. destruct Hi as (n & <- & Hn). apply in_seq in Hn. lia. Qed.
Lemma Transform_ok : forall b st block, uu b st -> zlen block = 16 ->
  exists b', Transform false b block = Ok b' /\ uu b' (compress st (map u block)).
Proof.
  intros b st block (w & x & y & z & -> & E) L. unfold Transform.
  change (getA [w; x; y; z] 0) with (Ok w). change (getA [w; x; y; z] 1) with (Ok x).
  change (getA [w; x; y; z] 2) with (Ok y). change (getA [w; x; y; z] 3) with (Ok z). rewrite !bind_ok, calls_ok.
  destruct (run_ok numbers block w x y z L numbers_range) as (w' & x' & y' & z' & -> & M). rewrite bind_ok. unfold add.
  set (w1 := wrap_s 32 (w + w')). set (x1 := wrap_s 32 (x + x')). set (y1 := wrap_s 32 (y + y')). set (z1 := wrap_s 32 (z + z')).
  exists [w1; x1; y1; z1]. split; [reflexivity|]. exists w1, x1, y1, z1. split; [reflexivity|].
  unfold compress. rewrite E in M. destruct st as [[[a b] c] d]. injection E as <- <- <- <-. rewrite <- M.
  unfold w1, x1, y1, z1. rewrite !u_add. reflexivity.
Qed.

(** * Bytes and words *)
Lemma rev_word : forall b0 b1 b2 b3, is_byte b0 -> is_byte b1 -> is_byte b2 -> is_byte b3 ->
  u (wrap_s 32 (256 * wrap_s 32 (256 * wrap_s 32 (256 * b3 + b2) + b1) + b0)) = word b0 b1 b2 b3.
Proof.
  unfold is_byte. intros b0 b1 b2 b3 R0 R1 R2 R3. rewrite u_s.
  rewrite (wrap_s_id 32 (256 * b3 + b2)) by (try lia; apply in_int32; lia).
  rewrite (wrap_s_id 32 (256 * (256 * b3 + b2) + b1)) by (try lia; apply in_int32; lia).
  unfold word. rewrite u_small by (unfold W; change (2 ^ 32) with 4294967296; lia). ring.
Qed.
Lemma rawget_at : forall (p : list Z) c q k, k = zlen p -> rawget (p ++ c :: q) k = Ok c.
Proof.
  intros p c q k ->. apply rawget_ok; [apply zlen_nonneg|]. unfold zlen. rewrite Nat2Z.id, nth_error_app2 by lia. rewrite Nat.sub_diag. reflexivity.
Qed.
Lemma ByteReverse_ok : forall n p l q pre old post, bytes l -> length l = (4 * n)%nat -> length old = n ->
  exists ws, ByteReverse n (p ++ l ++ q) (zlen p) (pre ++ old ++ post) (zlen pre) = Ok (pre ++ ws ++ post) /\
    length ws = n /\ map u ws = words l.
Proof.
  induction n as [|n IH]; intros p l q pre old post B Ll Lo.
  - destruct l; [|discriminate Ll]. destruct old; [|discriminate Lo]. exists []. auto.
  - destruct l as [|b0 [|b1 [|b2 [|b3 l]]]]; cbn [length] in Ll; try lia. destruct old as [|o old]; [discriminate Lo|].
    unfold bytes in B. do 4 (apply Forall_cons_iff in B; destruct B as [? B]).
    cbn [ByteReverse app].
    rewrite (rawget_at p b0) by reflexivity. rewrite bind_ok.
    replace (rawget (p ++ b0 :: b1 :: b2 :: b3 :: l ++ q) (zlen p + 1)) with (Ok b1)
      by (symmetry; rewrite <- (rawget_at (p ++ [b0]) b1 (b2 :: b3 :: l ++ q) (zlen p + 1)) by (rewrite zlen_app; reflexivity);
          f_equal; rewrite <- app_assoc; reflexivity).
    replace (rawget (p ++ b0 :: b1 :: b2 :: b3 :: l ++ q) (zlen p + 2)) with (Ok b2)
      by (symmetry; rewrite <- (rawget_at (p ++ [b0; b1]) b2 (b3 :: l ++ q) (zlen p + 2)) by (rewrite zlen_app; reflexivity);
          f_equal; rewrite <- app_assoc; reflexivity).
    replace (rawget (p ++ b0 :: b1 :: b2 :: b3 :: l ++ q) (zlen p + 3)) with (Ok b3)
      by (symmetry; rewrite <- (rawget_at (p ++ [b0; b1; b2]) b3 (l ++ q) (zlen p + 3)) by (rewrite zlen_app; reflexivity);
          f_equal; rewrite <- app_assoc; reflexivity).
    rewrite !bind_ok. cbv zeta. set (t := wrap_s 32 (256 * wrap_s 32 (256 * wrap_s 32 (256 * b3 + b2) + b1) + b0)).
    rewrite setA_at, bind_ok.
    replace (p ++ b0 :: b1 :: b2 :: b3 :: l ++ q) with ((p ++ [b0; b1; b2; b3]) ++ l ++ q) by (rewrite <- app_assoc; reflexivity).
    replace (pre ++ t :: old ++ post) with ((pre ++ [t]) ++ old ++ post) by (rewrite <- app_assoc; reflexivity).
    replace (zlen p + 4) with (zlen (p ++ [b0; b1; b2; b3])) by (rewrite zlen_app; reflexivity).
    replace (zlen pre + 1) with (zlen (pre ++ [t])) by (rewrite zlen_app; reflexivity).
    cbn [length] in Lo. destruct (IH (p ++ [b0; b1; b2; b3]) l q (pre ++ [t]) old post ltac:(auto) ltac:(lia) ltac:(lia)) as (ws & -> & L1 & M).
    exists (t :: ws). split; [rewrite <- app_assoc; reflexivity|]. split; [cbn [length]; lia|].
    cbn [map words]. rewrite M. f_equal. apply rev_word; auto.
Qed.
Lemma zlen16 : forall l : list Z, length l = 16%nat -> zlen l = 16.
Proof. intros l L. unfold zlen. lia. Qed.

(** * The state *)
Definition St (c : context) (m : list Z) : Prop :=
  exists n full pend tl, m = full ++ pend /\ length full = (64 * n)%nat /\ (length pend < 64)%nat /\
    uu (buf c) (process n initial full) /\ inn c = pend ++ tl /\ length (inn c) = 64%nat.

Lemma process_app : forall n k st full x, length full = (64 * n)%nat ->
  process (n + k) st (full ++ x) = process k (process n st full) x.
Proof.
  induction n as [|n IH]; intros k st full x L; cbn [plus process].
  - destruct full; [reflexivity|discriminate L].
  - rewrite firstn_app, skipn_app. replace (64 - length full)%nat with 0%nat by lia. change (firstn 0 x) with (@nil Z). change (skipn 0 x) with x.
    rewrite app_nil_r. apply IH. rewrite skipn_length. lia.
Qed.
Lemma process_one : forall st x, length x = 64%nat -> process 1 st x = compress st (words x).
Proof. intros st x L. cbn [process]. rewrite firstn_all2 by lia. reflexivity. Qed.
Lemma process_last : forall n st full x, length full = (64 * n)%nat -> length x = 64%nat ->
  process (n + 1) st (full ++ x) = compress (process n st full) (words x).
Proof. intros. rewrite process_app, process_one by auto. reflexivity. Qed.

Lemma digest_ok : forall loc c i n full, length loc = 16%nat -> bytes i -> length i = 64%nat -> length full = (64 * n)%nat ->
  uu (buf c) (process n initial full) ->
  exists b, digest_block false loc c i = Ok {| buf := b; bits := bits c; inn := i |} /\
    uu b (process (n + 1) initial (full ++ i)).
Proof.
  intros loc c i n full Ll Bi Li Lf U. unfold digest_block.
  destruct (ByteReverse_ok 16 [] i [] [] loc [] Bi ltac:(lia) Ll) as (ws & E & Lw & M).
  cbn [app] in E. rewrite !app_nil_r in E. change (zlen (@nil Z)) with 0 in E. rewrite E, bind_ok.
  destruct (Transform_ok (buf c) _ ws U (zlen16 ws Lw)) as (b & -> & Ub). rewrite bind_ok.
  exists b. split; [reflexivity|]. rewrite process_app, process_one by auto. rewrite <- M. exact Ub.
Qed.

Lemma pend_mod : forall n (full pend : list Z), length full = (64 * n)%nat -> (length pend < 64)%nat ->
  zlen (full ++ pend) mod 64 = zlen pend.
Proof.
  intros n full pend Lf Lp. rewrite zlen_app. unfold zlen at 1. rewrite Lf. replace (Z.of_nat (64 * n)) with (Z.of_nat n * 64) by lia.
  rewrite Z.add_comm, Z.mod_add by lia. apply Z.mod_small. unfold zlen. lia.
Qed.
Lemma bits_mod : forall k, (wrap_s 32 (8 * k) / 8) mod 64 = k mod 64.
Proof.
  intro k. unfold wrap_s. change (2 ^ (32 - 1)) with 2147483648. change (2 ^ 32) with 4294967296.
  Ltac Zify.zify_post_hook ::= Z.to_euclidean_division_equations.
  lia.
Qed.
Ltac Zify.zify_post_hook ::= idtac.
Lemma wrap_add : forall x y, wrap_s 32 (wrap_s 32 x + y) = wrap_s 32 (x + y).
Proof.
  intros. unfold wrap_s. f_equal. replace ((x + 2 ^ (32 - 1)) mod 2 ^ 32 - 2 ^ (32 - 1) + y + 2 ^ (32 - 1)) with ((x + 2 ^ (32 - 1)) mod 2 ^ 32 + y) by ring.
  rewrite Zplus_mod_idemp_l. f_equal. ring.
Qed.
Definition Rel (c : context) (m : list Z) : Prop := St c m /\ bits c = wrap_s 32 (8 * zlen m).

Lemma Write_ok : forall loc c m ch, length loc = 16%nat -> Rel c m -> bytes m -> is_byte ch ->
  exists c', Write false loc c ch = Ok c' /\ Rel c' (m ++ [ch]).
Proof.
  intros loc c m ch Ll [(n & full & pend & tl & -> & Lf & Lp & U & Ei & Li) Eb] Bm Bc.
  unfold Write, add. rewrite bind_ok. cbn [inn buf bits]. rewrite Eb, bits_mod, (pend_mod n) by auto.
  rewrite wrap_add. replace (8 * zlen (full ++ pend) + 8) with (8 * zlen ((full ++ pend) ++ [ch])) by (rewrite (zlen_app _ (full ++ pend)); change (zlen [ch]) with 1; lia).
  destruct tl as [|o tl]; [exfalso; rewrite Ei, app_nil_r in Li; lia|].
  assert (length pend + length tl = 63)%nat as L63 by (rewrite Ei, app_length in Li; cbn [length] in Li; lia).
  destruct (zlen pend >? 0) eqn:E0.
  - cbv zeta. replace (64 - (64 - zlen pend)) with (zlen pend) by lia. rewrite Ei, setA_at, bind_ok.
    destruct (1 <? 64 - zlen pend) eqn:E1.
    + eexists. split; [reflexivity|]. split; [|reflexivity]. exists n, full, (pend ++ [ch]), tl. cbn [inn buf].
      split; [rewrite app_assoc; reflexivity|]. split; [auto|]. split; [rewrite app_length; unfold zlen in E1; cbn [length]; lia|].
      split; [exact U|]. split; [rewrite <- app_assoc; reflexivity|]. rewrite app_length. cbn [length]. lia.
    + assert (tl = []) as -> by (destruct tl; auto; unfold zlen in E1; cbn [length] in L63; lia).
      destruct (digest_ok loc {| buf := buf c; bits := wrap_s 32 (8 * zlen ((full ++ pend) ++ [ch])); inn := inn c |} (pend ++ [ch]) n full Ll) as (b & E & Ub); auto.
      * apply Forall_app in Bm. apply Forall_app. split; [tauto|]. constructor; auto.
      * rewrite app_length. cbn [length] in *. lia.
      * cbn [bits inn] in E. rewrite Ei in E. rewrite E, bind_ok.
        replace (1 - (64 - zlen pend) >? 0) with false by (unfold zlen; cbn [length] in L63; lia).
        eexists. split; [reflexivity|]. split; [|reflexivity]. exists (n + 1)%nat, (full ++ pend ++ [ch]), [], (pend ++ [ch]).
        cbn [inn buf app]. rewrite app_nil_r. split; [rewrite <- app_assoc; reflexivity|].
        split; [rewrite !app_length; cbn [length] in *; lia|]. split; [cbn; lia|]. split; [exact Ub|]. split; [reflexivity|].
        rewrite app_length. cbn [length] in *. lia.
  - assert (pend = []) as -> by (destruct pend; auto; unfold zlen in E0; cbn [length] in E0; lia).
    cbn [app] in Ei. rewrite Ei. change (setA (o :: tl) 0 ch) with (setA ([] ++ o :: tl) (zlen (@nil Z)) ch). rewrite setA_at, bind_ok.
    eexists. split; [reflexivity|]. split; [|reflexivity]. exists n, full, [ch], tl. cbn [inn buf app length] in *. rewrite app_nil_r.
    split; [reflexivity|]. split; [auto|]. split; [lia|]. split; [exact U|]. split; [reflexivity|lia].
Qed.

Lemma move_at : forall p x q dp old dq, length x = length old ->
  move (p ++ x ++ q) (zlen p) (dp ++ old ++ dq) (zlen dp) (zlen x) = Ok (dp ++ x ++ dq).
Proof.
  intros p x q dp old dq L. unfold move. rewrite !zlen_app.
  assert (zlen x = zlen old) as Lz by (unfold zlen; lia).
  pose proof (zlen_nonneg _ p). pose proof (zlen_nonneg _ x). pose proof (zlen_nonneg _ q).
  pose proof (zlen_nonneg _ dp). pose proof (zlen_nonneg _ dq).
  replace (0 <=? zlen x) with true by lia. replace (0 <=? zlen p) with true by lia. replace (zlen p + zlen x <=? zlen p + (zlen x + zlen q)) with true by lia.
  replace (0 <=? zlen dp) with true by lia. replace (zlen dp + zlen x <=? zlen dp + (zlen old + zlen dq)) with true by lia. cbn [andb].
  f_equal. unfold zlen. rewrite !Nat2Z.id.
  replace (Z.to_nat (Z.of_nat (length dp) + Z.of_nat (length x))) with (length dp + length old)%nat by lia.
  rewrite firstn_app, Nat.sub_diag, firstn_all. cbn [firstn]. rewrite app_nil_r. f_equal.
  rewrite skipn_app, skipn_all, Nat.sub_diag. cbn [skipn app].
  rewrite firstn_app, Nat.sub_diag, firstn_all. cbn [firstn]. rewrite app_nil_r. f_equal.
  rewrite app_assoc, skipn_app, skipn_all2 by (rewrite app_length; lia). rewrite app_length.
  replace (length dp + length old - (length dp + length old))%nat with 0%nat by lia. reflexivity.
Qed.
Lemma split_len : forall (l : list Z) n, (n <= length l)%nat -> exists x y, l = x ++ y /\ length x = n.
Proof.
  intros l n L. exists (firstn n l), (skipn n l). rewrite firstn_skipn. split; auto. apply firstn_length_le. auto.
Qed.

Lemma blocks_ok : forall fuel loc c n full p x q, length loc = 16%nat -> length full = (64 * n)%nat ->
  uu (buf c) (process n initial full) -> length (inn c) = 64%nat -> bytes x -> (length x < fuel)%nat ->
  exists c' n' xf xr, blocks false fuel loc c (p ++ x ++ q) (zlen p) (zlen x) = Ok (c', zlen (p ++ xf), zlen xr) /\
    x = xf ++ xr /\ (length xr < 64)%nat /\ length (full ++ xf) = (64 * n')%nat /\
    uu (buf c') (process n' initial (full ++ xf)) /\ length (inn c') = 64%nat /\ bits c' = bits c.
Proof.
  induction fuel as [|f IH]; intros loc c n full p x q Ll Lf U Li Bx Hf; [lia|].
  cbn [blocks]. destruct (zlen x >=? 64) eqn:E.
  - destruct (split_len x 64) as (x1 & x2 & -> & L1); [unfold zlen in E; lia|].
    apply Forall_app in Bx. destruct Bx as [B1 B2].
    rewrite getA_ix.
    2:{ rewrite !zlen_app. pose proof (zlen_nonneg _ p). pose proof (zlen_nonneg _ x2). pose proof (zlen_nonneg _ q). assert (zlen x1 = 64) by (unfold zlen; lia). lia. }
    rewrite bind_ok. replace (p ++ (x1 ++ x2) ++ q) with (p ++ x1 ++ (x2 ++ q)) by (rewrite <- !app_assoc; reflexivity).
    replace (move (p ++ x1 ++ x2 ++ q) (zlen p) (inn c) 0 64) with (Ok x1).
    2:{ pose proof (move_at p x1 (x2 ++ q) [] (inn c) [] ltac:(lia)) as M. cbn [app] in M. rewrite !app_nil_r in M.
        change (zlen (@nil Z)) with 0 in M. replace (zlen x1) with 64 in M by (unfold zlen; lia). symmetry. exact M. }
    rewrite bind_ok. destruct (digest_ok loc c x1 n full Ll B1 L1 Lf U) as (b & -> & Ub). rewrite bind_ok.
    replace (p ++ x1 ++ x2 ++ q) with ((p ++ x1) ++ x2 ++ q) by (rewrite <- app_assoc; reflexivity).
    replace (zlen p + 64) with (zlen (p ++ x1)) by (rewrite zlen_app; unfold zlen; lia).
    replace (zlen (x1 ++ x2) - 64) with (zlen x2) by (rewrite zlen_app; unfold zlen; lia).
    destruct (IH loc {| buf := b; bits := bits c; inn := x1 |} (n + 1)%nat (full ++ x1) (p ++ x1) x2 q) as (c' & n' & xf & xr & -> & -> & Lr & Lf' & U' & Li' & Eb); auto.
    { rewrite app_length. lia. } { rewrite app_length in Hf. lia. }
    exists c', n', (x1 ++ xf), xr. rewrite <- !app_assoc in *. repeat (split; auto).
  - exists c, n, [], x. rewrite !app_nil_r. repeat (split; auto). unfold zlen in E. lia.
Qed.
Lemma rest_ok : forall loc c n full p x q, length loc = 16%nat -> length full = (64 * n)%nat ->
  uu (buf c) (process n initial full) -> length (inn c) = 64%nat -> bytes x ->
  exists c', rest false loc c (p ++ x ++ q) (zlen p) (zlen x) = Ok c' /\ St c' (full ++ x) /\ bits c' = bits c.
Proof.
  intros loc c n full p x q Ll Lf U Li Bx. unfold rest.
  destruct (blocks_ok (S (Z.to_nat (zlen x))) loc c n full p x q Ll Lf U Li Bx) as (c' & n' & xf & xr & -> & -> & Lr & Lf' & U' & Li' & Eb).
  { unfold zlen. lia. }
  rewrite bind_ok. destruct (zlen xr >? 0) eqn:E.
  - rewrite getA_ix.
    2:{ rewrite !zlen_app. pose proof (zlen_nonneg _ p). pose proof (zlen_nonneg _ xf). pose proof (zlen_nonneg _ q). lia. }
    rewrite bind_ok. destruct (split_len (inn c') (length xr)) as (o & r & Eo & Lo); [lia|].
    pose proof (move_at (p ++ xf) xr q [] o r ltac:(lia)) as M. cbn [app] in M. change (zlen (@nil Z)) with 0 in M.
    rewrite <- !app_assoc in M. rewrite <- app_assoc, Eo, M, bind_ok. eexists. split; [reflexivity|]. split; [|exact Eb].
    exists n', (full ++ xf), xr, r. cbn [inn buf]. rewrite <- app_assoc. split; [reflexivity|]. rewrite app_assoc in *. split; [exact Lf'|]. split; [auto|].
    split; [exact U'|]. split; [reflexivity|]. rewrite app_length. rewrite Eo, app_length in Li'. lia.
  - assert (xr = []) as -> by (destruct xr; auto; unfold zlen in E; cbn [length] in E; lia).
    exists c'. split; [reflexivity|]. split; [|exact Eb]. exists n', (full ++ xf), [], (inn c').
    rewrite !app_nil_r. repeat (split; auto).
Qed.

Lemma WriteBytes_ok : forall loc c m x q, length loc = 16%nat -> Rel c m -> bytes m -> bytes x -> x ++ q <> [] ->
  exists c', WriteBytes false loc c (x ++ q) (zlen x) = Ok c' /\ Rel c' (m ++ x).
Proof.
  intros loc c m x q Ll [(n & full & pend & tl & -> & Lf & Lp & U & Ei & Li) Eb] Bm Bx Ne.
  unfold WriteBytes. cbn [inn buf bits]. rewrite Eb, bits_mod, (pend_mod n) by auto.
  rewrite wrap_add. replace (8 * zlen (full ++ pend) + zlen x * 8) with (8 * zlen ((full ++ pend) ++ x)) by (rewrite (zlen_app _ (full ++ pend)); lia).
  assert (length pend + length tl = 64)%nat as L64 by (rewrite Ei, app_length in Li; lia).
  set (bs := wrap_s 32 (8 * zlen ((full ++ pend) ++ x))).
  destruct (zlen pend >? 0) eqn:E0.
  - cbv zeta. rewrite getA_ix.
    2:{ split; [lia|]. destruct (x ++ q); [congruence|]. rewrite zlen_cons. pose proof (zlen_nonneg _ l). lia. }
    rewrite bind_ok. replace (64 - (64 - zlen pend)) with (zlen pend) by lia.
    destruct (zlen x <? 64 - zlen pend) eqn:E1.
    + destruct (split_len tl (length x)) as (o & r & -> & Lo); [unfold zlen in E1; lia|].
      pose proof (move_at [] x q pend o r ltac:(lia)) as M. cbn [app] in M. change (zlen (@nil Z)) with 0 in M.
      rewrite Ei, M, bind_ok. eexists. split; [reflexivity|]. split; [|reflexivity].
      exists n, full, (pend ++ x), r. cbn [inn buf]. rewrite <- !app_assoc. rewrite app_length in L64.
      split; [reflexivity|]. split; [auto|]. split; [rewrite app_length; unfold zlen in E1; lia|].
      split; [exact U|]. split; [reflexivity|]. rewrite !app_length. lia.
    + destruct (split_len x (length tl)) as (x1 & x2 & -> & L1); [unfold zlen in E1; lia|].
      apply Forall_app in Bx. destruct Bx as [B1 B2]. apply Forall_app in Bm. destruct Bm as [Bf Bp].
      pose proof (move_at [] x1 (x2 ++ q) pend tl [] ltac:(lia)) as M. cbn [app] in M. change (zlen (@nil Z)) with 0 in M. rewrite !app_nil_r in M.
      replace (zlen x1) with (64 - zlen pend) in M by (unfold zlen; lia). rewrite <- app_assoc, Ei, M, bind_ok.
      assert (length (pend ++ x1) = 64%nat) as LB by (rewrite app_length; lia).
      destruct (digest_ok loc {| buf := buf c; bits := bs; inn := inn c |} (pend ++ x1) n full Ll) as (b & E & Ub); auto.
      { apply Forall_app. auto. }
      cbn [bits inn] in E. rewrite Ei in E. rewrite E, bind_ok.
      replace (64 - zlen pend) with (zlen x1) by (unfold zlen; lia).
      replace (zlen (x1 ++ x2) - zlen x1) with (zlen x2) by (rewrite zlen_app; lia).
      destruct (rest_ok loc {| buf := b; bits := bs; inn := pend ++ x1 |} (n + 1)%nat (full ++ pend ++ x1) x1 x2 q) as (c' & -> & S' & Eb'); auto.
      { rewrite app_length. lia. }
      exists c'. split; [reflexivity|]. split; [|rewrite Eb'; reflexivity].
      rewrite <- !app_assoc in *. exact S'.
  - assert (pend = []) as -> by (destruct pend; auto; unfold zlen in E0; cbn [length] in E0; lia).
    rewrite app_nil_r in *. destruct (rest_ok loc {| buf := buf c; bits := bs; inn := inn c |} n full [] x q) as (c' & E & S' & Eb'); auto.
    cbn [app] in E. change (zlen (@nil Z)) with 0 in E. exists c'. split; [exact E|]. split; [exact S'|]. rewrite Eb'. unfold bs. rewrite app_nil_r. reflexivity.
Qed.

(** * Close *)
Lemma zeros_ok : forall n p old q, length old = n -> zeros n (p ++ old ++ q) (zlen p) = Ok (p ++ repeat 0 n ++ q).
Proof.
  induction n as [|n IH]; intros p old q L; destruct old as [|o old]; cbn [length] in L; try lia; cbn [zeros]; [reflexivity|].
  cbn [app]. rewrite setA_at, bind_ok. replace (p ++ 0 :: old ++ q) with ((p ++ [0]) ++ old ++ q) by (rewrite <- app_assoc; reflexivity).
  replace (zlen p + 1) with (zlen (p ++ [0])) by (rewrite zlen_app; reflexivity). rewrite IH by lia. rewrite <- app_assoc. reflexivity.
Qed.
Lemma le_length : forall n x, length (le n x) = n.
Proof. induction n; intro x; cbn [le length]; auto. Qed.
Lemma le_bytes : forall n x, bytes (le n x).
Proof. induction n; intro x; cbn [le]; constructor; [apply Z.mod_pos_bound; lia|apply IHn]. Qed.
Lemma words_app : forall n a b, length a = (4 * n)%nat -> words (a ++ b) = words a ++ words b.
Proof.
  induction n as [|n IH]; intros a b L.
  - destruct a; [reflexivity|discriminate L].
  - destruct a as [|b0 [|b1 [|b2 [|b3 a]]]]; cbn [length] in L; try lia. cbn [app words]. rewrite IH by lia. reflexivity.
Qed.
Ltac Zify.zify_post_hook ::= Z.to_euclidean_division_equations.
Lemma words_len : forall k, 0 <= k < W -> words (le 8 k) = [k; 0].
Proof.
  intros k R. cbn [le words]. unfold word. unfold W in R. change (2 ^ 32) with 4294967296 in R. f_equal; [|f_equal]; lia.
Qed.
Lemma mem_le : forall x, mem x = le 4 (u x).
Proof.
  intro x. unfold mem. fold (u x). pose proof (u_range x) as R. set (y := u x) in *. unfold W in R. change (2 ^ 32) with 4294967296 in R.
  cbn [le]. do 4 (apply f_equal2; [lia|]). reflexivity.
Qed.
Lemma words_mem : forall x l, words (mem x ++ l) = u x :: words l.
Proof.
  intros x l. unfold mem. fold (u x). pose proof (u_range x) as R. set (y := u x) in *. unfold W in R. change (2 ^ 32) with 4294967296 in R.
  cbn [app words]. unfold word. f_equal. lia.
Qed.
Lemma mem_bytes : forall x, bytes (mem x).
Proof. intro x. rewrite mem_le. apply le_bytes. Qed.
Ltac Zify.zify_post_hook ::= idtac.
Lemma mem_length : forall x, length (mem x) = 4%nat.
Proof. reflexivity. Qed.

(** The last block: 56 bytes and the length. *)
Lemma last_ok : forall loc b st y q bs, length loc = 16%nat -> uu b st -> bytes y -> length y = 56%nat ->
  exists d, (let* block := ByteReverse 14 (y ++ q) 0 loc 0 in
   let* block := setA block 14 bs in
   let* block := setA block 15 0 in
   let* b := Transform false b block in
   let* block := ByteReverse 4 (flat_map mem b) 0 block 0 in
   move (flat_map mem block) 0 (repeat 0 16) 0 16) = Ok d /\
   d = let '(a, b, c, d) := compress st (words y ++ [u bs; 0]) in le 4 a ++ le 4 b ++ le 4 c ++ le 4 d.
Proof.
  intros loc b st y q bs Ll U By Ly. eexists. split; [|reflexivity].
  destruct (split_len loc 14) as (l1 & l2 & -> & L14); [lia|].
  destruct l2 as [|o1 [|o2 [|o3 l2]]]; rewrite app_length in Ll; cbn [length] in Ll; try lia.
  destruct (ByteReverse_ok 14 [] y q [] l1 [o1; o2] By ltac:(lia) L14) as (ws & E & Lw & M).
  cbn [app] in E. change (zlen (@nil Z)) with 0 in E. rewrite E, bind_ok.
  replace 14 with (zlen ws) by (unfold zlen; lia). rewrite setA_at, bind_ok.
  replace (ws ++ [bs; o2]) with ((ws ++ [bs]) ++ [o2]) by (rewrite <- app_assoc; reflexivity).
  replace 15 with (zlen (ws ++ [bs])) by (rewrite zlen_app; unfold zlen; cbn [length]; lia). rewrite setA_at, bind_ok.
  set (block := (ws ++ [bs]) ++ [0]).
  assert (length block = 16%nat) as LB by (unfold block; rewrite !app_length; cbn [length]; lia).
  destruct (Transform_ok b st block U (zlen16 _ LB)) as (b' & -> & (w & x & y' & z & -> & Ub)). rewrite bind_ok.
  replace (map u block) with (words y ++ [u bs; 0]) in Ub by (unfold block; rewrite !map_app, M, <- app_assoc; reflexivity).
  rewrite <- Ub. cbn [flat_map].
  destruct (split_len block 4) as (k1 & k2 & -> & L4); [lia|].
  assert (bytes (mem w ++ mem x ++ mem y' ++ mem z ++ [])) as BB by (repeat (apply Forall_app; split; [apply mem_bytes|]); constructor).
  destruct (ByteReverse_ok 4 [] (mem w ++ mem x ++ mem y' ++ mem z ++ []) [] [] k1 k2 BB eq_refl L4) as (ws2 & E2 & Lw2 & M2).
  cbn [app] in E2. change (zlen (@nil Z)) with 0 in E2. rewrite app_nil_r in E2. rewrite E2, bind_ok.
  rewrite !words_mem in M2. cbn [words] in M2. destruct ws2 as [|w2 [|x2 [|y2 [|z2 [|]]]]]; cbn [length] in Lw2; try lia.
  cbn [map] in M2. injection M2 as M2a M2b M2c M2d.
  cbn [app flat_map]. rewrite !mem_le, M2a, M2b, M2c, M2d.
  pose proof (move_at [] (le 4 (u w) ++ le 4 (u x) ++ le 4 (u y') ++ le 4 (u z)) (flat_map mem k2) [] (repeat 0 16) [] eq_refl) as MV.
  cbn [app] in MV. rewrite !app_nil_r in MV. change (zlen (@nil Z)) with 0 in MV.
  change (zlen (le 4 (u w) ++ le 4 (u x) ++ le 4 (u y') ++ le 4 (u z))) with 16 in MV. rewrite <- !app_assoc in MV. exact MV.
Qed.

Lemma Close_ok : forall loc c m, length loc = 16%nat -> Rel c m -> bytes m -> zlen m < 2 ^ 29 ->
  Close false loc c = Ok (md5 m).
Proof.
  intros loc c m Ll [(n & full & pend & tl & -> & Lf & Lp & U & Ei & Li) Eb] Bm Hm.
  unfold Close. rewrite Eb, bits_mod, (pend_mod n) by auto.
  apply Forall_app in Bm. destruct Bm as [Bf Bp].
  destruct tl as [|o tl]; [exfalso; rewrite Ei, app_nil_r in Li; lia|].
  assert (length pend + length tl = 63)%nat as L63 by (rewrite Ei, app_length in Li; cbn [length] in Li; lia).
  rewrite Ei, setA_at, bind_ok. cbv zeta.
  assert (u (wrap_s 32 (8 * zlen (full ++ pend))) = 8 * zlen (full ++ pend)) as Hu.
  { rewrite u_s. apply u_small. pose proof (zlen_nonneg _ (full ++ pend)). unfold W. change (2 ^ 32) with 4294967296. change (2 ^ 29) with 536870912 in Hm. lia. }
  assert (0 <= 8 * zlen (full ++ pend) < W) as HW by (rewrite <- Hu; apply u_range).
  unfold md5.
  assert (forall k : nat, (0 <= 63 - Z.of_nat (length pend))) as _ by lia.
  replace (pend ++ 128 :: tl) with ((pend ++ [128]) ++ tl) by (rewrite <- app_assoc; reflexivity).
  replace (zlen pend + 1) with (zlen (pend ++ [128])) by (rewrite zlen_app; reflexivity).
  assert (bytes (pend ++ [128])) as Bp1 by (apply Forall_app; split; auto; constructor; [unfold is_byte; lia|constructor]).
  assert (forall k, bytes (repeat 0 k)) as B0 by (intro k; apply Forall_forall; intros d Id; apply repeat_spec in Id; subst d; unfold is_byte; lia).
  assert ((55 - zlen (full ++ pend)) mod 64 = (55 - zlen pend) mod 64) as EP.
  { rewrite Zminus_mod, (pend_mod n) by auto. rewrite <- (Z.mod_small (zlen pend) 64) at 1 by (unfold zlen; lia). rewrite <- Zminus_mod. reflexivity. }
  unfold padding. rewrite EP.
  destruct (64 - 1 - zlen pend <? 8) eqn:E8.
  - replace (Z.to_nat (64 - 1 - zlen pend)) with (length tl) by (unfold zlen; lia).
    rewrite <- (app_nil_r tl) at 2. rewrite zeros_ok by reflexivity. rewrite bind_ok, app_nil_r.
    set (y1 := (pend ++ [128]) ++ repeat 0 (length tl)).
    assert (length y1 = 64%nat) as L1 by (unfold y1; rewrite !app_length, repeat_length; cbn [length]; lia).
    assert (bytes y1) as By1 by (apply Forall_app; split; [exact Bp1|apply B0]).
    destruct (digest_ok loc c y1 n full Ll By1 L1 Lf U) as (b & -> & Ub). rewrite bind_ok. cbn [inn].
    destruct (split_len y1 56) as (k1 & k2 & Ek & L56); [lia|]. rewrite Ek at 1.
    pose proof (zeros_ok 56 [] k1 k2 L56) as ZZ. cbn [app] in ZZ. change (zlen (@nil Z)) with 0 in ZZ. rewrite ZZ, !bind_ok. cbn [inn buf bits].
    rewrite Eb. destruct (last_ok loc b _ (repeat 0 56) k2 (wrap_s 32 (8 * zlen (full ++ pend))) Ll Ub (B0 _) eq_refl) as (d & -> & ->).
    rewrite Hu.
    replace (Z.to_nat ((55 - zlen pend) mod 64)) with (length tl + 56)%nat.
    2:{ replace (55 - zlen pend) with (119 - zlen pend + (-1) * 64) by ring. rewrite Z.mod_add by lia. rewrite Z.mod_small by (unfold zlen in *; lia). unfold zlen in *. lia. }
    assert ((full ++ pend) ++ 128 :: repeat 0 (length tl + 56) ++ le 8 (8 * zlen (full ++ pend)) = (full ++ y1) ++ (repeat 0 56 ++ le 8 (8 * zlen (full ++ pend)))) as EE.
    { unfold y1. rewrite repeat_app. repeat rewrite <- app_assoc. reflexivity. }
    rewrite EE. clear EE.
    assert (length ((full ++ y1) ++ repeat 0%Z 56 ++ le 8 (8 * zlen (full ++ pend))) / 64 = (n + 1) + 1)%nat as LE.
    { rewrite !app_length, repeat_length, le_length, Lf, L1. replace (64 * n + 64 + (56 + 8))%nat with ((n + 1 + 1) * 64)%nat by lia. apply Nat.div_mul. lia. }
    rewrite LE, (process_last (n + 1) initial (full ++ y1)) by (rewrite ?app_length; auto; lia).
    rewrite (words_app 14) by reflexivity. rewrite words_len by auto. reflexivity.
  - replace (Z.to_nat (64 - 1 - zlen pend - 8)) with (length tl - 8)%nat by (unfold zlen; lia).
    destruct (split_len tl (length tl - 8)) as (t1 & t2 & Et & Lt); [lia|].
    assert (length tl >= 8)%nat as G8 by (unfold zlen in E8; lia).
    rewrite Et at 2. rewrite zeros_ok by lia. rewrite !bind_ok. cbn [inn buf bits].
    set (y1 := (pend ++ [128]) ++ repeat 0 (length tl - 8)).
    assert (length y1 = 56%nat) as L1 by (unfold y1; rewrite !app_length, repeat_length; cbn [length]; lia).
    assert (bytes y1) as By1 by (apply Forall_app; split; [exact Bp1|apply B0]).
    rewrite app_assoc. fold y1.
    destruct (last_ok loc (buf c) _ y1 t2 (wrap_s 32 (8 * zlen (full ++ pend))) Ll U By1 L1) as (d & -> & ->). rewrite Hu.
    replace (Z.to_nat ((55 - zlen pend) mod 64)) with (length tl - 8)%nat by (rewrite Z.mod_small by (unfold zlen in *; lia); unfold zlen; lia).
    assert ((full ++ pend) ++ 128 :: repeat 0 (length tl - 8) ++ le 8 (8 * zlen (full ++ pend)) = full ++ (y1 ++ le 8 (8 * zlen (full ++ pend)))) as EE.
    { unfold y1. repeat rewrite <- app_assoc. reflexivity. }
    rewrite EE. clear EE.
    assert (length (full ++ y1 ++ le 8 (8 * zlen (full ++ pend))) / 64 = n + 1)%nat as LE.
    { rewrite !app_length, le_length, Lf, L1. replace (64 * n + (56 + 8))%nat with ((n + 1) * 64)%nat by lia. apply Nat.div_mul. lia. }
    rewrite LE, (process_last n initial full) by (auto; rewrite app_length, le_length; lia).
    rewrite (words_app 14) by auto. rewrite words_len by auto. reflexivity.
Qed.
Lemma New_ok : Rel New [].
Proof.
  split; [|reflexivity]. exists 0%nat, [], [], (repeat 0 64). repeat (split; [solve [auto|reflexivity|cbn; lia]|]). 
  split; [|split; reflexivity]. exists 1732584193, (-271733879), (-1732584194), 271733878. split; reflexivity.
Qed.

(** * Hexadecimal *)
Lemma hex_ok : forall n digest str, length digest = n -> forall pre spre old post, length old = (2 * n)%nat -> length spre = (2 * length pre)%nat -> str = spre ++ old ++ post ->
  hex_loop n (pre ++ digest) (zlen pre) str = Ok (spre ++ flat_map (fun d => [HexDigit (d / 16); HexDigit (d mod 16)]) digest ++ post).
Proof.
  induction n as [|n IH]; intros digest str L pre spre old post Lo Ls ->; destruct digest as [|d digest]; cbn [length] in L; try lia.
  - destruct old; [reflexivity|discriminate Lo].
  - destruct old as [|o1 [|o2 old]]; cbn [length] in Lo; try lia. cbn [hex_loop]. rewrite getA_at, bind_ok.
    replace (2 * zlen pre) with (zlen spre) by (unfold zlen; lia). cbn [app]. rewrite setA_at, bind_ok.
    set (h := HexDigit (d / 16)). set (h2 := HexDigit (d mod 16)).
    replace (spre ++ h :: o2 :: old ++ post) with ((spre ++ [h]) ++ o2 :: old ++ post) by (rewrite <- app_assoc; reflexivity).
    replace (zlen spre + 1) with (zlen (spre ++ [h])) by (rewrite zlen_app; reflexivity). rewrite setA_at, bind_ok.
    replace (pre ++ d :: digest) with ((pre ++ [d]) ++ digest) by (rewrite <- app_assoc; reflexivity).
    replace (zlen pre + 1) with (zlen (pre ++ [d])) by (rewrite zlen_app; reflexivity).
    rewrite (IH digest _ ltac:(lia) (pre ++ [d]) (spre ++ [h; h2]) old post) by (rewrite ?app_length; cbn [length]; try lia; repeat rewrite <- app_assoc; reflexivity).
    cbn [flat_map]. fold h h2. repeat rewrite <- app_assoc. reflexivity.
Qed.
