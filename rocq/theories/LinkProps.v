(** C94: a program is linked with the object files of the local modules it needs, and a failing C compiler is reported. *)
From Verif Require Import Base ArrZ LinkModel LinkSpec.
From Verif Require StringsModel StringsProofs.

(** The Append used here is the effect of that of C28. *)
Lemma Append_is_C28 : forall extra d, zlen extra <= 32767 -> zlen d <= 32767 -> exists d', StringsModel.Append extra d = Ok d' /\ zlen d' = zlen d /\ str_of d' = Append (length d) (str_of extra) (str_of d).
Proof. intros extra d H1 H2. exact (StringsProofs.Append_str extra d H1 H2). Qed.

Lemma str_eqb_ok : forall a b, str_eqb a b = true <-> a = b.
Proof. intros a b. unfold str_eqb. destruct (list_eq_dec Z.eq_dec a b); split; congruence. Qed.
Lemma str_eqb_refl : forall a, str_eqb a a = true.
Proof. intros. apply str_eqb_ok. reflexivity. Qed.
Lemma mem_ok : forall n links, existsb (fun l => str_eqb l n) links = true <-> In n links.
Proof.
  intros n links. rewrite existsb_exists. split.
  - intros (x & I & E). apply str_eqb_ok in E. subst. exact I.
  - intros I. exists n. split; [exact I|apply str_eqb_refl].
Qed.
Lemma InLinks_ok : forall names links, NoDup links -> NoDup (InLinks names links) /\ forall x, In x (InLinks names links) <-> In x links \/ In x names.
Proof.
  induction names as [|n names IH]; intros links ND; cbn [InLinks]; [split; [exact ND|]; cbn; tauto|].
  destruct (existsb (fun l => str_eqb l n) links) eqn:M.
  - apply mem_ok in M. destruct (IH links ND) as [A B]. split; [exact A|]. intros x. rewrite B. cbn. split; [tauto|]. intros [I|[<-|I]]; tauto.
  - assert (N : ~ In n links) by (intros I; apply mem_ok in I; congruence).
    destruct (IH (n :: links) (NoDup_cons n N ND)) as [A B]. split; [exact A|]. intros x. rewrite B. cbn. tauto.
Qed.
(** A symbol file names the modules its module needs. *)
Definition right (imp : str -> list str) (w : world) (m : str) : Prop := exists l, found w m = Some l /\ NoDup l /\ forall x, In x l <-> needs imp m x.
Lemma Imports_ok : forall imp w is links, (forall i, In i is -> right imp w i) -> NoDup links ->
  exists l, Imports w is links = Some l /\ NoDup l /\ forall x, In x l <-> In x links \/ exists i, In i is /\ needs imp i x.
Proof.
  intros imp w. induction is as [|i is IH]; intros links R ND; cbn [Imports].
  - exists links. split; [reflexivity|]. split; [exact ND|]. intros x. split; [auto|]. intros [I|(i & [] & _)]. exact I.
  - destruct (R i (or_introl eq_refl)) as (li & F & NDi & Si). rewrite F. destruct (InLinks_ok li links ND) as [ND' S'].
    destruct (IH (InLinks li links) (fun j J => R j (or_intror J)) ND') as (l & E & NDl & Sl). exists l. split; [exact E|]. split; [exact NDl|].
    intros x. rewrite Sl, S', Si. cbn [In]. split.
    + intros [[I|N]|(j & J & N)]; [left; exact I|right; exists i; auto|right; exists j; auto].
    + intros [I|(j & [<-|J] & N)]; [auto|auto|right; exists j; auto].
Qed.
Lemma needs_split : forall imp m x, needs imp m x <-> m = x \/ exists i, In i (imp m) /\ needs imp i x.
Proof.
  intros imp m x. split.
  - intros [|i y I N]; [left; reflexivity|right; eauto].
  - intros [<-|(i & I & N)]; [constructor|econstructor; eauto].
Qed.
Lemma Links_ok : forall imp w force m, (forall i, In i (imp m) -> right imp w i) -> found w m = None \/ force = true ->
  exists l, Links w force m (imp m) = Some l /\ NoDup l /\ forall x, In x l <-> needs imp m x.
Proof.
  intros imp w force m R N. destruct (Imports_ok imp w (imp m) [m] R) as (l & E & ND & S).
  { constructor; [intros []|constructor]. }
  exists l. unfold Links. rewrite E. split; [|split; [exact ND|]].
  - destruct force; [reflexivity|]. destruct N as [N|N]; [rewrite N; reflexivity|discriminate].
  - intros x. rewrite S, needs_split. cbn. tauto.
Qed.

(** A build from the start: modules compiled one after the other, none of them twice, after the modules they import. *)
Fixpoint build (imp : str -> list str) (w : world) (ms : list str) : option world :=
  match ms with
  | [] => Some w
  | m :: ms => match Compile w false false false m (imp m) with Some (w, _) => build imp w ms | None => None end
  end.
Fixpoint ordered (imp : str -> list str) (lib : str -> Prop) (before ms : list str) : Prop :=
  match ms with
  | [] => True
  | m :: ms => ~ lib m /\ ~ In m before /\ (forall i, In i (imp m) -> lib i \/ In i before) /\ ordered imp lib (m :: before) ms
  end.
(** The libraries: their symbol files are right, they need no local modules, and there are no other symbol files. *)
Definition libraries (imp : str -> list str) (lib : str -> Prop) (f : str -> option (list str)) : Prop :=
  (forall m, lib m -> exists l, f m = Some l /\ NoDup l /\ forall x, In x l <-> needs imp m x) /\ (forall m, f m <> None -> lib m) /\ (forall m i, lib m -> In i (imp m) -> lib i).
Definition inv (imp : str -> list str) (lib : str -> Prop) (w : world) (before : list str) : Prop :=
  libraries imp lib (libsym w) /\ (forall m, In m before <-> lsym w m <> None) /\ (forall m, In m before <-> obj w m = true) /\
  (forall m, lib m \/ In m before -> right imp w m) /\ (forall m, In m before -> ~ lib m /\ forall i, In i (imp m) -> lib i \/ In i before).
Lemma build_ok : forall imp lib ms w before, inv imp lib w before -> ordered imp lib before ms -> exists w', build imp w ms = Some w' /\ inv imp lib w' (rev ms ++ before).
Proof.
  intros imp lib. induction ms as [|m ms IH]; intros w before I O; cbn [build rev].
  - exists w. split; [reflexivity|exact I].
  - destruct O as (NL & NB & IM & O). pose proof I as (IL & IS & IO & IR & IC).
    assert (FN : found w m = None).
    { unfold found. destruct (lsym w m) eqn:E; [destruct NB; apply IS; congruence|]. destruct (libsym w m) eqn:E2; [|reflexivity].
      destruct NL. apply (proj1 (proj2 IL)). congruence. }
    destruct (Links_ok imp w false m (fun i J => IR i (IM i J)) (or_introl FN)) as (l & E & ND & S).
    unfold Compile. rewrite E, FN. cbn [negb andb orb].
    match goal with |- context [build imp ?x ms] => set (w' := x) end.
    destruct (IH w' (m :: before)) as (w2 & B & I2).
    + split; [exact IL|]. split; [|split; [|split]].
      * intros x. cbn. destruct (str_eqb x m) eqn:X.
        -- apply str_eqb_ok in X. subst. split; [discriminate|auto].
        -- rewrite <- IS. split; [|auto]. intros [->|J]; [rewrite str_eqb_refl in X; discriminate|exact J].
      * intros x. cbn. destruct (str_eqb x m) eqn:X.
        -- apply str_eqb_ok in X. subst. tauto.
        -- rewrite <- IO. split; [|auto]. intros [->|J]; [rewrite str_eqb_refl in X; discriminate|exact J].
      * intros x X. unfold right, found. cbn. destruct (str_eqb x m) eqn:XM.
        -- apply str_eqb_ok in XM. subst. exists l. auto.
        -- apply (IR x). cbn in X. destruct X as [X|[->|X]]; [auto|rewrite str_eqb_refl in XM; discriminate|auto].
      * intros x [<-|X]; [split; [exact NL|]; intros i J; specialize (IM i J); cbn; tauto|].
        destruct (IC x X) as [C1 C2]. split; [exact C1|]. intros i J. specialize (C2 i J). cbn. tauto.
    + exact O.
    + exists w2. split; [exact B|]. rewrite <- app_assoc. exact I2.
Qed.

Lemma A_chain : forall x s, A x (firstn 4096 s) = firstn 4096 (s ++ x).
Proof.
  intros x s. unfold A, Append. rewrite !firstn_app, firstn_firstn, Nat.min_id, firstn_length. f_equal.
  destruct (Nat.le_ge_cases 4096 (length s)).
  - rewrite Nat.min_l by assumption. rewrite Nat.sub_diag. replace (4096 - length s)%nat with O by lia. reflexivity.
  - rewrite Nat.min_r by assumption. reflexivity.
Qed.
Lemma COPY_fits : forall n s, (length s < n)%nat -> COPY n s = s.
Proof. intros n s H. unfold COPY. apply firstn_all2. lia. Qed.
Definition compiler_part (c : conf) (e : env) (opts : str) : str :=
  compile c ++ [32; 45; 73; 32; 34] ++ ResourceDir e ++ [47; 105; 110; 99; 108; 117; 100; 101; 34; 32] ++ opts ++ [32] ++ CFLAGS e ++ [32].
Lemma init_ok : forall c e opts, (length (compile c) < 4096)%nat -> InitialiseCompilerCommand c e opts = firstn 4096 (compiler_part c e opts).
Proof.
  intros c e opts H. unfold InitialiseCompilerCommand. rewrite COPY_fits by assumption.
  rewrite <- (firstn_all2 (n := 4096) (compile c)) at 1 by lia. rewrite !A_chain. f_equal. unfold compiler_part. rewrite <- !app_assoc. reflexivity.
Qed.

(** The words of a command. *)
Definition get (cur : option str) : str := match cur with None => [] | Some w => w end.
Lemma path_in : forall p, is_path p -> forall c, In c p -> (c =? 34) = false.
Proof.
  intros p H c I. unfold is_path in H. rewrite forallb_forall in H. specialize (H c I). unfold special in H. cbn [existsb] in H.
  destruct (c =? 34); [discriminate|reflexivity].
Qed.
Lemma path_cons : forall c p, is_path (c :: p) -> is_path p.
Proof. intros c p H. unfold is_path in *. cbn in H. apply andb_prop in H. tauto. Qed.
Lemma path_app : forall a b, is_path a -> is_path b -> is_path (a ++ b).
Proof. intros a b H1 H2. unfold is_path in *. rewrite forallb_app, H1, H2. reflexivity. Qed.
Lemma lex_quoted : forall p w s, is_path p -> lex true (Some w) (p ++ s) = lex true (Some (w ++ p)) s.
Proof.
  induction p as [|c p IH]; intros w s H; cbn [app]; [rewrite app_nil_r; reflexivity|].
  cbn [lex]. rewrite (path_in _ H c (or_introl eq_refl)). cbn [negb]. rewrite andb_false_r. cbn [put]. rewrite IH by (eapply path_cons; eassumption). rewrite <- app_assoc. reflexivity.
Qed.
Lemma lex_plain : forall p cur s, is_path p -> ~ In 32 p -> p <> [] -> lex false cur (p ++ s) = lex false (Some (get cur ++ p)) s.
Proof.
  induction p as [|c p IH]; intros cur s H N NE; [congruence|]. cbn [app lex]. rewrite (path_in _ H c (or_introl eq_refl)).
  replace (c =? 32) with false by (symmetry; apply Z.eqb_neq; intros ->; apply N; left; reflexivity). cbn [andb].
  destruct p as [|d p].
  - cbn [app]. f_equal. destruct cur; reflexivity.
  - rewrite IH; [|eapply path_cons; eassumption|intros J; apply N; right; exact J|discriminate]. f_equal. f_equal. destruct cur; cbn [put get]; rewrite <- ?app_assoc; reflexivity.
Qed.
Lemma lex_plain' : forall p w s, is_path p -> ~ In 32 p -> lex false (Some w) (p ++ s) = lex false (Some (w ++ p)) s.
Proof. intros [|c p] w s H N; [cbn; rewrite app_nil_r; reflexivity|]. apply (lex_plain (c :: p) (Some w) s H N). discriminate. Qed.
Lemma lex_words : forall t cur s, is_path t -> lex false cur (t ++ 32 :: s) = lex false cur t ++ lex false None s.
Proof.
  induction t as [|c t IH]; intros cur s H; cbn [app]; [reflexivity|]. cbn [lex]. rewrite (path_in _ H c (or_introl eq_refl)).
  destruct ((c =? 32) && negb false); rewrite IH by (eapply path_cons; eassumption); [apply app_assoc|reflexivity].
Qed.
Definition objects (ext : str) (ls : list str) : str := flat_map (fun l => 32 :: l ++ ext) ls.
Lemma objects_path : forall ext ls, is_path ext -> Forall is_name ls -> is_path (objects ext ls).
Proof.
  intros ext ls HE H. induction H as [|l ls (_ & P & _) F IH]; [reflexivity|]. cbn [objects flat_map].
  change (32 :: l ++ ext) with ([32] ++ l ++ ext). repeat apply path_app; auto. reflexivity.
Qed.
Lemma words_objects : forall ext ls, is_path ext -> ~ In 32 ext -> Forall is_name ls -> forall cur, lex false cur (objects ext ls) = match cur with None => [] | Some w => [w] end ++ map (fun l => l ++ ext) ls.
Proof.
  intros ext ls HE HN H. induction H as [|l ls (NE & P & NB) F IH]; intros cur; cbn [objects flat_map map].
  - cbn. rewrite app_nil_r. reflexivity.
  - cbn [app lex Z.eqb Pos.eqb andb negb]. f_equal. rewrite <- app_assoc, (lex_plain l None) by assumption. rewrite lex_plain' by assumption. cbn [get app].
    fold (objects ext ls). rewrite IH. reflexivity.
Qed.

Definition include : str := [47; 105; 110; 99; 108; 117; 100; 101].
Definition lib_ : str := [47; 108; 105; 98].
Lemma words_init : forall c e opts s, is_path (compile c) -> is_path (ResourceDir e) -> is_path opts -> is_path (CFLAGS e) ->
  words (compiler_part c e opts ++ s) = words (compile c) ++ [45; 73] :: (ResourceDir e ++ include) :: words opts ++ words (CFLAGS e) ++ words s.
Proof.
  intros c e opts s HC HR HO HF. unfold words, compiler_part. rewrite <- !app_assoc. cbn [app]. rewrite lex_words by assumption. f_equal.
  cbn [lex Z.eqb Pos.eqb andb negb put app]. f_equal. rewrite lex_quoted by assumption. cbn [app lex Z.eqb Pos.eqb andb negb put]. rewrite <- !app_assoc. cbn [app]. f_equal.
  rewrite lex_words by assumption. f_equal. rewrite lex_words by assumption. reflexivity.
Qed.

Lemma Append_chain : forall n x s, Append n x (firstn n s) = firstn n (s ++ x).
Proof.
  intros n x s. unfold Append. rewrite !firstn_app, firstn_firstn, Nat.min_id, firstn_length. f_equal.
  destruct (Nat.le_ge_cases n (length s)).
  - rewrite Nat.min_l by assumption. rewrite Nat.sub_diag. replace (n - length s)%nat with O by lia. reflexivity.
  - rewrite Nat.min_r by assumption. reflexivity.
Qed.
Definition local (w : world) (l : str) : bool := match lsym w l with Some _ => obj w l | None => false end.
Lemma find_ok : forall c w links, Forall (fun l => (length l <= 59)%nat) links -> (length (objext c) <= 4)%nat -> FindLocalObjectFiles c w links = firstn 2048 (objects (objext c) (filter (local w) links)).
Proof.
  intros c w links H HO. unfold FindLocalObjectFiles.
  assert (G : forall acc, fold_left (add_object c w) links (firstn 2048 acc) = firstn 2048 (acc ++ objects (objext c) (filter (local w) links))).
  { induction H as [|l links HL F IH]; intros acc; cbn [fold_left filter]; [cbn; rewrite app_nil_r; reflexivity|].
    unfold add_object at 2. unfold local at 1. destruct (lsym w l); [|apply IH]. destruct (obj w l); [|apply IH].
    rewrite COPY_fits by lia. unfold Append at 2. rewrite (firstn_all2 (n := 64)) by (rewrite app_length; lia). rewrite !Append_chain, IH. f_equal.
    unfold objects. cbn [flat_map app]. rewrite <- !app_assoc. reflexivity. }
  apply (G []).
Qed.
Lemma link_ok : forall cc static name dar e m stat opts, (length cc < 4096)%nat -> dar = false \/ stat = false ->
  link_command (unix cc static name dar) e m stat opts =
  firstn 4096 (compiler_part (unix cc static name dar) e opts ++ m ++ [46; 99; 32] ++ (if stat then static else []) ++ [32; 45; 111; 32] ++ m ++ [32; 45; 76; 34] ++ InstallDir e ++ lib_ ++ [34] ++ [32; 45; 108] ++ name ++ [45; 79] ++ Model e).
Proof.
  intros cc static name dar e m stat opts H D. unfold link_command. rewrite init_ok by exact H. cbn [unix darwin objflag linkflags libspec libext staticLink].
  replace (negb stat || negb dar) with true by (destruct D; subst; [rewrite orb_true_r|]; reflexivity).
  destruct stat.
  - destruct D as [->|D]; [|discriminate]. rewrite !A_chain. f_equal. rewrite <- !app_assoc. rewrite app_nil_r. reflexivity.
  - rewrite !A_chain. f_equal. rewrite <- !app_assoc. rewrite app_nil_r. reflexivity.
Qed.
Lemma words_link : forall static name e m stat, is_path static -> is_name name -> is_name m -> is_path (InstallDir e) -> is_path (Model e) -> ~ In 32 (Model e) ->
  words (m ++ [46; 99; 32] ++ (if stat : bool then static else []) ++ [32; 45; 111; 32] ++ m ++ [32; 45; 76; 34] ++ InstallDir e ++ lib_ ++ [34] ++ [32; 45; 108] ++ name ++ [45; 79] ++ Model e) =
  [m ++ [46; 99]] ++ (if stat then words static else []) ++ [[45; 111]; m; [45; 76] ++ InstallDir e ++ lib_; [45; 108] ++ name ++ [45; 79] ++ Model e].
Proof.
  intros static name e m stat HS (N1 & N2 & N3) (M1 & M2 & M3) HI HM HB. unfold words.
  rewrite (lex_plain m None) by assumption. cbn [get app lex Z.eqb Pos.eqb andb negb put]. rewrite <- ?app_assoc. cbn [app]. f_equal.
  set (rest := 45 :: 111 :: 32 :: m ++ 32 :: 45 :: 76 :: 34 :: InstallDir e ++ lib_ ++ 34 :: 32 :: 45 :: 108 :: name ++ 45 :: 79 :: Model e).
  assert (R : lex false None rest = [[45; 111]; m; [45; 76] ++ InstallDir e ++ lib_; [45; 108] ++ name ++ [45; 79] ++ Model e]).
  { unfold rest. cbn [lex Z.eqb Pos.eqb andb negb put app]. f_equal. rewrite (lex_plain m None) by assumption. cbn [get app lex Z.eqb Pos.eqb andb negb put]. f_equal.
    rewrite lex_quoted by assumption. rewrite lex_quoted by reflexivity. cbn [app lex Z.eqb Pos.eqb andb negb put]. rewrite <- ?app_assoc. cbn [app]. f_equal.
    rewrite lex_plain' by assumption. cbn [app lex Z.eqb Pos.eqb andb negb put]. rewrite <- (app_nil_r (Model e)) at 1. rewrite lex_plain' by assumption. cbn [lex app]. rewrite <- ?app_assoc. cbn [app]. rewrite <- ?app_assoc. reflexivity. }
  destruct stat.
  - rewrite lex_words by assumption. rewrite R. reflexivity.
  - cbn [app lex Z.eqb Pos.eqb andb negb]. rewrite R. reflexivity.
Qed.

Definition total (ls : list str) : nat := fold_right Nat.add O (map (fun l => length l + 3)%nat ls).
Lemma objects_length : forall ls, length (objects [46; 111] ls) = total ls.
Proof. induction ls as [|l ls IH]; [reflexivity|]. cbn [objects flat_map]. rewrite app_length. fold (objects [46; 111] ls). rewrite IH. unfold total. cbn [map fold_right length]. rewrite app_length. cbn [length]. lia. Qed.

(** After a build from the start, the main program is linked with the object files of exactly the local modules it needs, each once, with the include directory,
    the library directory and the library of its data model; directories may contain blanks.  Missing: later changes of modules, names and commands that do not fit,
    static linking on Darwin. *)
Theorem C94_program_partial : forall imp lib w0 ms cc static name dar e sys m stat,
  libraries imp lib (libsym w0) -> (forall x, lsym w0 x = None) -> (forall x, obj w0 x = false) -> ordered imp lib [] (ms ++ [m]) ->
  (forall x, needs imp m x -> is_name x /\ (length x <= 59)%nat) ->
  is_path cc -> is_path static -> is_name name -> is_path (InstallDir e) -> is_path (ResourceDir e) -> is_path (CFLAGS e) -> is_path (Model e) -> ~ In 32 (Model e) -> dar = false \/ stat = false ->
  exists w ls, build imp w0 ms = Some w /\ NoDup ls /\ (forall x, In x ls <-> In x ms /\ needs imp m x) /\
  ((total ls < 2048)%nat -> (length cc + length (ResourceDir e) + total ls + length (CFLAGS e) + 2 * length m + length static + length (InstallDir e) + length name + length (Model e) + 60 < 4096)%nat ->
   exists cmd cmds r, Main (unix cc static name dar) e sys w false false stat m (imp m) = Some (cmd :: cmds, r) /\
   words cmd = words cc ++ [[45; 73]; ResourceDir e ++ include] ++ map (fun l => l ++ [46; 111]) ls ++ words (CFLAGS e) ++ [m ++ [46; 99]] ++ (if stat then words static else []) ++
     [[45; 111]; m; [45; 76] ++ InstallDir e ++ lib_; [45; 108] ++ name ++ [45; 79] ++ Model e]).
Proof.
  intros imp lib w0 ms cc static name dar e sys m stat HL H0 HO OR HN Hcc Hst Hname Hin Hre Hcf Hmo HmB HD.
  assert (SPLIT : forall b l, ordered imp lib b (l ++ [m]) -> ordered imp lib b l /\ ~ lib m /\ ~ In m (rev l ++ b) /\ forall i, In i (imp m) -> lib i \/ In i (rev l ++ b)).
  { intros b l. revert b. induction l as [|x l IH]; intros b O; cbn [app ordered rev] in *.
    - tauto.
    - destruct O as (A1 & A2 & A3 & A4). destruct (IH _ A4) as (B1 & B2 & B3 & B4). rewrite <- app_assoc. cbn [app]. tauto. }
  destruct (SPLIT [] ms OR) as (OR' & NLm & NBm & IMm). rewrite app_nil_r in NBm, IMm.
  destruct (build_ok imp lib ms w0 []) as (w & B & I).
  { split; [exact HL|]. split; [|split; [|split]].
    - intros x. rewrite H0. cbn. tauto.
    - intros x. rewrite HO. cbn. split; [tauto|discriminate].
    - intros x [X|[]]. destruct (proj1 HL x X) as (l & E & R). exists l. unfold found. rewrite H0. auto.
    - intros x []. }
  { exact OR'. }
  rewrite app_nil_r in I. destruct I as (IL & IS & IO & IR & IC).
  assert (FN : found w m = None).
  { unfold found. destruct (lsym w m) eqn:E; [destruct NBm; apply IS; congruence|]. destruct (libsym w m) eqn:E2; [|reflexivity]. destruct NLm. apply (proj1 (proj2 IL)). congruence. }
  destruct (Links_ok imp w false m (fun i J => IR i (IMm i J)) (or_introl FN)) as (l & E & ND & S).
  set (w1 := {| lsym := fun x => if str_eqb x m then None else lsym w x; libsym := libsym w; obj := fun x => if str_eqb x m then negb true else obj w x |}).
  assert (CP : Compile w false false true m (imp m) = Some (w1, l)) by (unfold Compile; rewrite E; reflexivity).
  exists w, (filter (local w1) l). split; [exact B|]. split; [apply NoDup_filter; exact ND|].
  assert (LS : forall x, In x (filter (local w1) l) <-> In x ms /\ needs imp m x).
  { intros x. rewrite filter_In, S. unfold local. cbn. destruct (str_eqb x m) eqn:X.
    - apply str_eqb_ok in X. subst. split; [intros [_ D]; discriminate|]. intros [J _]. destruct NBm. apply in_rev. rewrite rev_involutive. exact J.
    - rewrite (in_rev ms), (IS x). split.
      + intros [N D]. destruct (lsym w x); [|discriminate]. split; [discriminate|exact N].
      + intros [D N]. split; [exact N|]. destruct (lsym w x) eqn:L; [|congruence]. apply IO. apply IS. congruence. }
  split; [exact LS|]. intros T1 T2.
  assert (LN : Forall is_name (filter (local w1) l)).
  { apply Forall_forall. intros x X. apply LS in X. apply (HN x). tauto. }
  assert (OB : FindLocalObjectFiles (unix cc static name dar) w1 l = objects [46; 111] (filter (local w1) l)).
  { rewrite find_ok; [|apply Forall_forall; intros x X; apply S in X; apply (HN x X)|cbn; lia]. apply firstn_all2. cbn [unix objext]. rewrite objects_length. lia. }
  unfold Main. rewrite CP, OB. unfold LinkMain.
  set (big := compiler_part (unix cc static name dar) e (objects [46; 111] (filter (local w1) l)) ++ m ++ [46; 99; 32] ++ (if stat then static else []) ++ [32; 45; 111; 32] ++ m ++ [32; 45; 76; 34] ++ InstallDir e ++ lib_ ++ [34] ++ [32; 45; 108] ++ name ++ [45; 79] ++ Model e).
  assert (LB : (length big < 4096)%nat).
  { unfold big, compiler_part. rewrite !app_length, objects_length. cbn [length unix compile lib_]. destruct stat; cbn [length]; lia. }
  assert (LC : link_command (unix cc static name dar) e m stat (objects [46; 111] (filter (local w1) l)) = big).
  { rewrite link_ok by (assumption || lia). apply firstn_all2. fold big. lia. }
  assert (W : words big = words cc ++ [[45; 73]; ResourceDir e ++ include] ++ map (fun l => l ++ [46; 111]) (filter (local w1) l) ++ words (CFLAGS e) ++ [m ++ [46; 99]] ++ (if stat then words static else []) ++
     [[45; 111]; m; [45; 76] ++ InstallDir e ++ lib_; [45; 108] ++ name ++ [45; 79] ++ Model e]).
  { unfold big. rewrite words_init; [|assumption|assumption|apply objects_path; [reflexivity|assumption]|assumption]. cbn [unix compile app]. f_equal. f_equal. f_equal.
    unfold words at 1. rewrite words_objects; [|reflexivity|intros [D|[D|[]]]; discriminate|assumption]. cbn [app]. f_equal. f_equal. apply words_link; try assumption. apply (HN m). constructor. }
  rewrite LC. unfold execute. cbn zeta. rewrite (COPY_fits 4096 big LB).
  destruct (if wrap_s 16 (sys big) =? 0 then None else _) as [code|].
  - exists big, [], (Some code). split; [reflexivity|exact W].
  - destruct (_ && _).
    + exists big. eexists. eexists. split; [reflexivity|exact W].
    + exists big, [], None. split; [reflexivity|exact W].
Qed.

(** The compiler goes on exactly if the command succeeded; otherwise it ends with the same exit status, or the number of the signal, and never with 0. *)
Theorem C94_status : forall sys cmd o, possible o -> sys (COPY 4096 cmd) = reported o ->
  match snd (execute sys cmd) with
  | None => o = Exited 0
  | Some code => exit_status code = match o with Exited n => n | Killed s _ => s | NotRun => 127 end /\ exit_status code <> 0
  end.
Proof.
  intros sys cmd o P E. unfold execute. cbn [snd]. rewrite E.
  destruct o as [n|s core|]; cbn [possible reported] in *.
  - unfold wrap_s. change (2 ^ (16 - 1)) with 32768. change (2 ^ 16) with 65536.
    assert (W : exists k, (n * 256 + 32768) mod 65536 - 32768 = (n - 256 * k) * 256 /\ (k = 0 \/ k = 1) /\ (k = 0 <-> n < 128)).
    { destruct (Z_lt_dec n 128).
      - exists 0. rewrite Z.mod_small by lia. lia.
      - exists 1. replace (n * 256 + 32768) with ((n - 256) * 256 + 32768 + 1 * 65536) by lia. rewrite Z.mod_add, Z.mod_small by lia. lia. }
    destruct W as (k & -> & K1 & K2). rewrite Z.div_mul by lia.
    replace ((n - 256 * k) * 256) with ((n - 256 * k) * 2 * 128) by lia. rewrite Z.mod_mul by lia. cbn [Z.eqb].
    destruct (Z.eqb_spec ((n - 256 * k) * 2 * 128) 0).
    + f_equal. lia.
    + replace (n - 256 * k >? 127) with false by lia. unfold exit_status.
      replace (n - 256 * k) with (n + (- k) * 256) by lia. rewrite Z.mod_add, Z.mod_small by lia. lia.
  - unfold wrap_s. change (2 ^ (16 - 1)) with 32768. change (2 ^ 16) with 65536.
    set (x := s + (if core then 128 else 0)). assert (X : x = s \/ x = s + 128) by (unfold x; destruct core; lia).
    rewrite Z.mod_small by lia. replace (x + 32768 - 32768) with x by lia. replace (x =? 0) with false by lia.
    assert (M : x mod 128 = s) by (destruct X as [->| ->]; [|replace (s + 128) with (s + 1 * 128) by lia; rewrite Z.mod_add by lia]; apply Z.mod_small; lia).
    rewrite M. replace (s =? 0) with false by lia. unfold exit_status. rewrite Z.mod_small by lia. lia.
  - vm_compute. split; [reflexivity|discriminate].
Qed.

Theorem C94_assemble_partial : forall cc static name dar e sys m, is_path cc -> is_path (ResourceDir e) -> is_path (CFLAGS e) -> is_name m ->
  (length cc + length (ResourceDir e) + length (CFLAGS e) + length m + 60 < 4096)%nat ->
  words (fst (Assemble (unix cc static name dar) e sys m)) = words cc ++ [[45; 73]; ResourceDir e ++ include] ++ words (CFLAGS e) ++ [[45; 99]; m ++ [46; 99]].
Proof.
  intros cc static name dar e sys m HC HR HF (M1 & M2 & M3) L. unfold Assemble, execute. cbn [fst]. rewrite init_ok by (cbn; lia). rewrite !A_chain.
  rewrite (firstn_all2 (n := 4096)) by (unfold compiler_part; rewrite !app_length; cbn [length unix compile]; lia).
  rewrite COPY_fits by (unfold compiler_part; rewrite !app_length; cbn [length unix compile]; lia).
  rewrite <- !app_assoc. rewrite words_init by (assumption || reflexivity). cbn [unix compile app]. f_equal. f_equal. f_equal. cbn [words lex app]. f_equal.
  cbn [lex Z.eqb Pos.eqb andb negb put app]. f_equal. rewrite (lex_plain m None) by assumption. cbn [get app lex Z.eqb Pos.eqb andb negb put]. rewrite <- app_assoc. reflexivity.
Qed.

(** The full claim fails.  A module that imports a further module while what it exports stays the same keeps its old symbol file: the further module is not linked. *)
Definition nothing : world := {| lsym := fun _ => None; libsym := fun _ => None; obj := fun _ => false |}.
Definition here : env := {| InstallDir := [47; 109; 121; 32; 118; 111; 99]; ResourceDir := [47; 109; 121; 32; 118; 111; 99; 47; 50]; Model := [50]; CFLAGS := [45; 79; 49; 32; 45; 103] |}.
Definition gcc : str := [103; 99; 99; 32; 45; 103].
Definition voc : str := [118; 111; 99].
Theorem C94_stale_refuted : exists w1 w2 w3 cmd l1 l2 l3,
  Compile nothing false false false [65] [] = Some (w1, l1) /\ Compile w1 false false false [66] [] = Some (w2, l2) /\ Compile w2 false false false [65] [[66]] = Some (w3, l3) /\
  Main (unix gcc [] voc false) here (fun _ => 0) w3 false false false [77] [[65]] = Some ([cmd], None) /\
  In ([65; 46; 111]) (words cmd) /\ ~ In ([66; 46; 111]) (words cmd) /\ needs (fun m => if str_eqb m [77] then [[65]] else if str_eqb m [65] then [[66]] else []) [77] [66].
Proof.
  do 7 eexists. split; [vm_compute; reflexivity|]. split; [vm_compute; reflexivity|]. split; [vm_compute; reflexivity|]. split; [vm_compute; reflexivity|].
  split; [vm_compute; tauto|]. split.
  - vm_compute. intros H. repeat (destruct H as [H|H]; [discriminate|]). exact H.
  - apply (needs_import _ _ [65]); [vm_compute; auto|]. apply (needs_import _ _ [66]); [vm_compute; auto|constructor].
Qed.
(** The list of object files is cut off without a message. *)
Definition many : list str := map (fun i => repeat 65 20 ++ [65 + Z.of_nat i mod 26; 65 + Z.of_nat i / 26]) (seq 0 100).
Theorem C94_cut_refuted : exists w l, Forall (fun x => lsym w x <> None /\ obj w x = true /\ is_name x /\ (length x <= 59)%nat) many /\ In l many /\
  ~ In (l ++ [46; 111]) (words (FindLocalObjectFiles (unix gcc [] voc false) w many)).
Proof.
  exists {| lsym := fun _ => Some []; libsym := fun _ => None; obj := fun _ => true |}, (last many []). split; [|split].
  - apply Forall_forall. intros x X. cbn. split; [discriminate|]. split; [reflexivity|].
    assert (C : forallb (fun x => negb (existsb (fun c => (c =? 32) || special c) x) && (length x =? 22)%nat) many = true) by (vm_compute; reflexivity).
    rewrite forallb_forall in C. specialize (C x X). apply andb_prop in C as [C1 C2]. apply Nat.eqb_eq in C2. apply negb_true_iff in C1.
    assert (N : forall c, In c x -> (c =? 32) || special c = false).
    { intros c I. destruct ((c =? 32) || special c) eqn:Y; [|reflexivity]. rewrite <- C1. symmetry. apply existsb_exists. exists c. auto. }
    split; [|lia]. split; [intros ->; discriminate|]. split.
    + apply forallb_forall. intros c I. specialize (N c I). apply orb_false_iff in N as [_ N]. rewrite N. reflexivity.
    + intros I. specialize (N 32 I). discriminate.
  - assert (C : existsb (fun x => str_eqb x (last many [])) many = true) by (vm_compute; reflexivity). apply existsb_exists in C as (x & I & C). apply str_eqb_ok in C. rewrite <- C. exact I.
  - intros I. assert (C : existsb (fun x => str_eqb x (last many [] ++ [46; 111])) (words (FindLocalObjectFiles (unix gcc [] voc false) {| lsym := fun _ => Some []; libsym := fun _ => None; obj := fun _ => true |} many)) = false) by (vm_compute; reflexivity).
    rewrite <- not_true_iff_false in C. apply C. apply existsb_exists. eexists. split; [exact I|]. apply str_eqb_refl.
Qed.
(** Linking statically on Darwin does not quote the directory. *)
Theorem C94_darwin_refuted : exists cmd, Main (unix gcc [] voc true) here (fun _ => 0) nothing false false true [77] [] = Some ([cmd], None) /\ In [47; 109; 121] (words cmd).
Proof. eexists. split; [vm_compute; reflexivity|]. vm_compute. tauto. Qed.

Definition ximp (m : str) : list str := if str_eqb m [77] then [[65]; [79; 117; 116]] else if str_eqb m [65] then [[66]; [79; 117; 116]] else [].
Definition xlib (m : str) : Prop := m = [79; 117; 116].
Definition start : world := {| lsym := fun _ => None; libsym := fun m => if str_eqb m [79; 117; 116] then Some [[79; 117; 116]] else None; obj := fun _ => false |}.
Example C94_met : libraries ximp xlib (libsym start) /\ ordered ximp xlib [] ([[66]; [67]; [65]] ++ [[77]]) /\
  exists w cmd, build ximp start [[66]; [67]; [65]] = Some w /\ Main (unix gcc [32; 45; 115] voc false) here (fun _ => 256) w false false true [77] (ximp [77]) = Some ([cmd], Some 1) /\
  words cmd = [[103; 99; 99]; [45; 103]; [45; 73]; [47; 109; 121; 32; 118; 111; 99; 47; 50] ++ include; [65; 46; 111]; [66; 46; 111]; [45; 79; 49]; [45; 103]; [77; 46; 99]; [45; 115]; [45; 111]; [77]; [45; 76; 47; 109; 121; 32; 118; 111; 99; 47; 108; 105; 98]; [45; 108; 118; 111; 99; 45; 79; 50]].
Proof.
  assert (OUT : ximp [79; 117; 116] = []) by (vm_compute; reflexivity).
  split; [|split].
  - split; [|split].
    + intros m ->. exists [[79; 117; 116]]. split; [reflexivity|]. split; [constructor; [intros []|constructor]|]. intros x. rewrite needs_split, OUT. cbn. split; [intros [<-|[]]; auto|intros [<-|(i & [] & _)]; auto].
    + intros m H. cbn in H. destruct (str_eqb m [79; 117; 116]) eqn:E; [apply str_eqb_ok in E; exact E|congruence].
    + intros m i -> I. rewrite OUT in I. destruct I.
  - unfold xlib. cbn [app ordered]. repeat split; try discriminate; try (intros I; vm_compute in I; repeat (destruct I as [I|I]; try discriminate); exact I);
      intros i I; vm_compute in I; cbn; repeat (destruct I as [<-|I]; [tauto|]); destruct I.
  - do 2 eexists. split; [vm_compute; reflexivity|]. split; vm_compute; reflexivity.
Qed.
Print Assumptions C94_program_partial. Print Assumptions C94_assemble_partial. Print Assumptions C94_status. Print Assumptions C94_stale_refuted. Print Assumptions C94_cut_refuted. Print Assumptions C94_darwin_refuted.
