(** C10, C15, C59: allocation, finalizers, and the heap as programs see it. *)
From Verif Require Import Base ArrZ HeapModel HeapSpec MarkProofs LayProofs ScanProofs AllocProofs ExtendProofs HeapProps GCProofs NewProofs TransSpec TransProofs FinProofs.
From Coq Require Import Permutation.

(** * C10 *)
(** NEW of a record type in any valid heap ends.  If it gives an address: it is divisible by 16; the object of [bs] bytes there (with the
    type tag in the word before it) is a block of the resulting heap, not free, every word of it is 0, and it overlaps no block that was
    alive (allocated and reachable) before.  It gives NIL only if the operating system refused a request for at least [bs] bytes.  In both
    cases the resulting heap is valid, the blocks that were alive are where they were with the same contents, and so is mapped memory outside. *)
Theorem C10_new : forall s L ls os push roots ws fs calls tag bs ofs, hinv s L ls -> honest os -> tdesc (hm s) L tag bs ofs ->
  Forall (fun q => q = 0 \/ In q (map ptr (blocks L))) roots -> (forall n, In n fs -> In (fobj n) (map ptr (blocks L))) ->
  exists N new s' L' ls' fs' calls', (forall fuel, (N <= fuel)%nat -> NEWREC fuel os push roots ws tag s fs calls = Ok (new, s', fs', calls')) /\
    hinv s' L' ls' /\
    (forall b, In b (blocks L) -> ~ free ls (ba b) -> alive s L roots ws fs b ->
       In b (blocks L') /\ ~ free ls' (ba b) /\ forall a, ba b <= a < ba b + bsz b -> (exists j, a = 8 * j) -> hm s' a = hm s a) /\
    (forall a, hm s a <> None -> ~ inside L a -> hm s' a = hm s a) /\
    (new = 0 /\ (exists t m sz, bs <= sz /\ os t m sz = None) \/
     new <> 0 /\ (exists k, new = 16 * k) /\ In (recb new bs tag ofs) (blocks L') /\ ~ free ls' (new - 8) /\ hm s' (new - 8) = Some tag /\
     (forall a, new <= a < new + bs - 8 -> (exists j, a = 8 * j) -> hm s' a = Some 0) /\
     (forall b, In b (blocks L) -> ~ free ls (ba b) -> alive s L roots ws fs b -> ba b + bsz b <= new - 8 \/ new - 8 + bs <= ba b)).
Proof.
  intros s L ls os push roots ws fs calls tag bs ofs HI Ho TD VR VF.
  destruct (NEWREC_spec s L ls os push roots ws fs calls tag bs ofs HI Ho TD VR VF) as (N & new & s' & L' & ls' & fs' & c' & A & [E1 E2 E3] & C & _).
  exists N, new, s', L', ls', fs', c'. split; auto. split; auto. split; auto. split; [intros a A1 A2; apply E3; auto|]. destruct C as [C|(Nn & [F1 F2 F3 F4])]; auto. right. cbn [recb ba bsz] in *. split; auto.
  pose proof (hi_ok _ _ _ E1) as OK'. destruct (ptr_al16 L' _ (ho_placed _ _ _ _ OK') F1) as (k & K). rewrite recb_ptr in K. split; [exists k; auto|]. split; auto. split; auto. split.
  - pose proof (ho_head _ _ _ _ OK' _ F1) as H. cbn [recb ba btag] in H. replace (isin _ []) with false in H by reflexivity. rewrite Z.add_0_r in H. auto.
  - split; auto. intros a A1 A2. apply F3; auto. lia.
Qed.
(** The heap a program starts with is valid and holds no object. *)
Theorem C10_initial_heap : forall os (m : mem), honest os -> (forall c junk, os O m 256024 = Some (c, junk) -> c + 256024 <= 2 ^ 64 - 1) -> os O m 256024 <> None ->
  exists s L ls, InitHeap os m = Ok s /\ hinv s L ls /\ (forall a, m a <> None -> hm s a = m a /\ ~ inside L a) /\ (forall b, In b (blocks L) -> free ls (ba b)).
Proof. intros os m Ho Hb N. destruct (InitHeap_spec os m Ho Hb) as [E|H]; [congruence|auto]. Qed.
(** When the very first request is refused, InitHeap writes to address 0. *)
Theorem C10_initial_heap_refuted : ~ (forall os m, honest os -> exists s, InitHeap os m = Ok s).
Proof. intro H. destruct (H (fun _ _ _ => None) (fun _ => None)) as (s & E); [intros t m size c junk Q; discriminate|]. vm_compute in E. discriminate. Qed.

(** * C59 *)
(** The program starts with all its variables NIL in memory [m] that holds the type descriptors. *)
Definition start (n : nat) : store := {| vars := repeat None n; objects := [] |}.
Definition laid_out (m : mem) (tys : types) : Prop := forall t tag bs ofs, tys t = Some (tag, bs, ofs) -> tdesc m [] tag bs ofs.
Lemma start_good : forall e m n s L ls, laid_out m (e_tys e) -> hinv s L ls -> (forall a, m a <> None -> hm s a = m a /\ ~ inside L a) -> good e s (repeat 0 n) (start n).
Proof.
  intros e m n s L ls Lo HI K. exists L, ls, (fun _ => 0). assert (NA : forall i, ~ areach e (start n) i).
  { intros i A. induction A as [i I|]; auto. cbn [start vars] in I. apply repeat_spec in I. discriminate. }
  constructor; auto; [| |intros i A; destruct (NA i A)|intros i j A; destruct (NA i A)].
  - intros t tag bs ofs T. pose proof (Lo t tag bs ofs T) as D. pose proof D as [D1 D2 D3 D4 D5 D6].
    assert (Mp : forall l tag k, words m tag l -> 0 <= k < zlen l -> m (tag + 8 * k) <> None).
    { clear. induction l as [|x l IH]; intros tag k W K; [rewrite zlen_nil in K; lia|]. rewrite zlen_cons in K. cbn [words] in W. destruct W as [W1 W2]. destruct (Z.eq_dec k 0) as [->|]; [rewrite Z.mul_0_r, Z.add_0_r; congruence|]. replace (tag + 8 * k) with (tag + 8 + 8 * (k - 1)) by lia. apply IH; auto. lia. }
    assert (Ml : zlen (bs :: ofs ++ [-8 * (zlen ofs + 1)]) = zlen ofs + 2) by (rewrite zlen_cons, zlen_app, zlen_cons, zlen_nil; lia).
    constructor; auto.
    + apply (words_frame m); auto. rewrite Ml. intros k Kk. apply K. apply (Mp _ tag k D1). lia.
    + intros k Kk. apply K. apply (Mp _ tag k D1). lia.
  - cbn [start vars]. clear. induction n; cbn [repeat map]; auto. rewrite IHn at 1. reflexivity.
Qed.
(** Every program that is not itself wrong runs on the storage manager without a fault and gives the outputs it gives when objects live for
    ever, whatever the collector does, wherever it runs, whatever other words are on the stack; [fulls] says at which steps memory is
    exhausted, and it is only if the operating system refuses a request. *)
Theorem C59_transparent : forall e m n ps, honest (e_os e) -> laid_out m (e_tys e) ->
  (forall c junk, e_os e O m 256024 = Some (c, junk) -> c + 256024 <= 2 ^ 64 - 1) -> e_os e O m 256024 <> None ->
  exists s0 N fulls, InitHeap (e_os e) m = Ok s0 /\ length fulls = length ps /\ (In true fulls -> exists t m sz, e_os e t m sz = None) /\
    forall st1 outs, arun (e_tys e) fulls ps (start n) = Some (st1, outs) -> exists s1 r1, forall fuel, (N <= fuel)%nat -> crun fuel e 0 ps s0 (repeat 0 n) = Ok (s1, r1, outs).
Proof.
  intros e m n ps Ho Lo Hb Nn. destruct (C10_initial_heap (e_os e) m Ho Hb Nn) as (s0 & L & ls & E & HI & K & _).
  destruct (run e Ho ps 0 s0 (repeat 0 n) (start n) (start_good e m n s0 L ls Lo HI K)) as (N & fulls & A & B & C). exists s0, N, fulls. split; auto. split; auto. split; auto.
  intros st1 outs Q. destruct (C st1 outs Q) as (s1 & r1 & D & _). exists s1, r1. auto.
Qed.
(** If the operating system never refuses, the outputs are those of the program with objects that live for ever. *)
Corollary C59_transparent_enough_memory : forall e m n ps st1 outs, honest (e_os e) -> laid_out m (e_tys e) ->
  (forall c junk, e_os e O m 256024 = Some (c, junk) -> c + 256024 <= 2 ^ 64 - 1) -> (forall t m sz, e_os e t m sz <> None) ->
  arun (e_tys e) (repeat false (length ps)) ps (start n) = Some (st1, outs) ->
  exists s0 N s1 r1, InitHeap (e_os e) m = Ok s0 /\ forall fuel, (N <= fuel)%nat -> crun fuel e 0 ps s0 (repeat 0 n) = Ok (s1, r1, outs).
Proof.
  intros e m n ps st1 outs Ho Lo Hb Nn A. destruct (C59_transparent e m n ps Ho Lo Hb (Nn _ _ _)) as (s0 & N & fulls & E & Ln & F & R).
  assert (fulls = repeat false (length ps)).
  { rewrite <- Ln. assert (X : ~ In true fulls) by (intro Q; destruct (F Q) as (t & m' & sz & Z); apply (Nn _ _ _ Z)). clear - X. induction fulls as [|[] l IH]; cbn [length repeat]; auto; [destruct X; left; auto|]. f_equal. apply IH. intro Q. apply X. right. auto. }
  subst fulls. destruct (R st1 outs A) as (s1 & r1 & C). exists s0, N, s1, r1. auto.
Qed.
(** Where the program runs, where its variables live and what else is on the stack makes no difference. *)
Corollary C59_placement_irrelevant : forall e1 e2 m1 m2 n ps st1 outs, (forall t, e_tys e1 t = None <-> e_tys e2 t = None) ->
  (forall t tag1 bs1 ofs1 tag2 bs2 ofs2, e_tys e1 t = Some (tag1, bs1, ofs1) -> e_tys e2 t = Some (tag2, bs2, ofs2) -> bs1 = bs2 /\ ofs1 = ofs2) ->
  honest (e_os e1) -> laid_out m1 (e_tys e1) -> (forall c junk, e_os e1 O m1 256024 = Some (c, junk) -> c + 256024 <= 2 ^ 64 - 1) -> (forall t m sz, e_os e1 t m sz <> None) ->
  honest (e_os e2) -> laid_out m2 (e_tys e2) -> (forall c junk, e_os e2 O m2 256024 = Some (c, junk) -> c + 256024 <= 2 ^ 64 - 1) -> (forall t m sz, e_os e2 t m sz <> None) ->
  arun (e_tys e1) (repeat false (length ps)) ps (start n) = Some (st1, outs) ->
  exists N s1 r1 s1' s2 r2 s2', InitHeap (e_os e1) m1 = Ok s1 /\ InitHeap (e_os e2) m2 = Ok s2 /\
    (forall fuel, (N <= fuel)%nat -> crun fuel e1 0 ps s1 (repeat 0 n) = Ok (s1', r1, outs) /\ crun fuel e2 0 ps s2 (repeat 0 n) = Ok (s2', r2, outs)).
Proof.
  intros e1 e2 m1 m2 n ps st1 outs T1 T2 H1 L1 B1 N1 H2 L2 B2 N2 A.
  assert (A2 : arun (e_tys e2) (repeat false (length ps)) ps (start n) = Some (st1, outs)).
  { rewrite <- A. clear - T1 T2. assert (D : forall st v, deref (e_tys e2) st v = deref (e_tys e1) st v).
    { intros st v. unfold deref. destruct (nth_error (vars st) v) as [[i|]|]; auto. destruct (nth_error (objects st) i) as [ob|]; auto. specialize (T1 (oty ob)). specialize (T2 (oty ob)).
      destruct (e_tys e1 (oty ob)) as [[[a1 b1] o1]|], (e_tys e2 (oty ob)) as [[[a2 b2] o2]|]; auto; [destruct (T2 _ _ _ _ _ _ eq_refl eq_refl) as [-> ->]; auto|destruct T1 as [_ T1]; discriminate (T1 eq_refl)|destruct T1 as [T1 _]; discriminate (T1 eq_refl)]. }
    generalize (start n). generalize (repeat false (length ps)). induction ps as [|p ps IH]; intros [|f fs] st; cbn [arun]; auto.
    assert (St : astep (e_tys e2) f p st = astep (e_tys e1) f p st).
    { destruct p; cbn [astep]; rewrite ?D; auto. specialize (T1 t). destruct (e_tys e1 t) as [q1|], (e_tys e2 t) as [q2|]; auto; [destruct T1 as [_ T1]; discriminate (T1 eq_refl)|destruct T1 as [T1 _]; discriminate (T1 eq_refl)]. }
    rewrite St. destruct (astep (e_tys e1) f p st) as [[st' o]|]; auto. rewrite IH. auto. }
  destruct (C59_transparent_enough_memory e1 m1 n ps st1 outs H1 L1 B1 N1 A) as (s1 & F1 & s1' & r1 & I1 & C1).
  destruct (C59_transparent_enough_memory e2 m2 n ps st1 outs H2 L2 B2 N2 A2) as (s2 & F2 & s2' & r2 & I2 & C2).
  exists (F1 + F2)%nat, s1, r1, s1', s2, r2, s2'. split; auto. split; auto. intros fuel F. split; [apply C1|apply C2]; lia.
Qed.

(** A concrete operating system (it looks for room), two types, and a program that builds a list, drops part of it and collects. *)
Fixpoint roomy (m : mem) (c : Z) (n : nat) : bool := match n with O => true | S n => match m c with None => roomy m (c + 1) n | Some _ => false end end.
Lemma roomy_spec : forall n m c, roomy m c n = true <-> forall a, c <= a < c + Z.of_nat n -> m a = None.
Proof.
  induction n as [|n IH]; intros m c; cbn [roomy]; [split; auto; lia|]. destruct (m c) eqn:E; [split; [discriminate|]; intro H; rewrite H in E by lia; discriminate|].
  rewrite IH. split; intros H a A; [destruct (Z.eq_dec a c) as [->|]; auto|]; apply H; lia.
Qed.
Definition exos : oracle := fun t m size => let c := 1048576 * (Z.of_nat t + 1) in if roomy m c (Z.to_nat size) then Some (c, fun a => a) else None.
Lemma exos_honest : honest exos.
Proof.
  intros t m size c junk E. unfold exos in E. cbv zeta in E. remember (1048576 * (Z.of_nat t + 1)) as c0 eqn:C0. destruct (roomy m c0 (Z.to_nat size)) eqn:R; [|discriminate]. injection E as <- <-. split; [lia|]. split; [exists (65536 * (Z.of_nat t + 1)); lia|].
  intros a A. rewrite roomy_spec in R. apply R. lia.
Qed.
Definition extys : types := fun t => match t with O => Some (1000, 32, [0; 8]) | S O => Some (1040, 64, [40]) | _ => None end.
Definition exm0 : mem := fun a => if (1000 <=? a) && (a <? 1100) then exm a else None.
Definition exenv : env := {| e_os := exos; e_tys := extys; e_k := 1; e_junk := fun t => [Z.of_nat t; 1048608] |}.
Definition exprog : list op :=
  [ONew 0 0; ONew 1 1; OPut 1 8 77; OStore 0 8 1; ONil 1; ONew 1 0; OGC; ONil 1; OGC; OLoad 1 0 8; OGet 1 8; ONew 2 0; OEq 1 2; OStore 1 40 2; OGC; OLoad 2 1 40; OEq 2 2; OCopy 0 2; OLoad 1 2 0; OEq 1 0].
Example exprog_meaning : option_map snd (arun extys (repeat false 20) exprog (start 3)) = Some [Word 77; Same false; Same true; Same false].
Proof. vm_compute. reflexivity. Qed.
Example exprog_runs : match InitHeap exos exm0 with Ok s => match crun 3000 exenv 0 exprog s [0; 0; 0] with Ok (_, _, o) => o = [Word 77; Same false; Same true; Same false] | _ => False end | _ => False end.
Proof. vm_compute. reflexivity. Qed.
Example exprog_laid_out : laid_out exm0 extys.
Proof.
  intros t tag bs ofs E. destruct t as [|[|t]]; cbn [extys] in E; inversion E; subst.
  - constructor; [repeat (split; [reflexivity|]); exact I|reflexivity|intros k _ (c & [] & _)|repeat constructor; cbn; lia|intros o [<-|[<-|[]]]; (split; [lia|split; [lia|]]); [exists 0; lia|exists 1; lia]|exists 1; lia].
  - constructor; [repeat (split; [reflexivity|]); exact I|reflexivity|intros k _ (c & [] & _)|repeat constructor; cbn; lia|intros o [<-|[]]; (split; [lia|split; [lia|]]); exists 5; lia|exists 2; lia].
Qed.
Example exprog_hypotheses : honest (e_os exenv) /\ laid_out exm0 (e_tys exenv) /\ (forall c junk, e_os exenv O exm0 256024 = Some (c, junk) -> c + 256024 <= 2 ^ 64 - 1) /\ e_os exenv O exm0 256024 <> None.
Proof.
  split; [exact exos_honest|]. split; [exact exprog_laid_out|]. assert (R : e_os exenv O exm0 256024 = Some (1048576, fun a => a)).
  { cbn [exenv e_os]. unfold exos. cbv zeta. replace (roomy exm0 (1048576 * (Z.of_nat 0 + 1)) (Z.to_nat 256024)) with true by (vm_compute; reflexivity). reflexivity. }
  rewrite R. split; [|discriminate]. intros c junk Q. inversion Q; subst. lia.
Qed.

(** * C15 *)
(** A collection calls finalizers only for objects that no variable and no word on the stack leads to.  It calls every finalizer whose object
    is not so reachable and not reachable from an object registered later (earlier in the list).  At the calls all objects reachable
    from registered ones are as they were. *)
Theorem C15_only_unreachable : forall s L ls push roots ws fs calls, hinv s L ls -> Forall (fun q => q = 0 \/ In q (map ptr (blocks L))) roots -> (forall n, In n fs -> In (fobj n) (map ptr (blocks L))) ->
  exists N s' L' ls' fs' cs, (forall fuel, (N <= fuel)%nat -> GC fuel push roots ws s fs calls = Ok (s', fs', cs ++ calls)) /\ hinv s' L' ls' /\
    (forall o f, In (o, f) cs -> (exists n, In n fs /\ reg n = (o, f)) /\ ~ exists q, root_of L roots ws q /\ reach (graph_of (hm s) L) q o) /\
    (forall l1 n l2, fs = l1 ++ n :: l2 -> ~ (exists q, root_of L roots ws q /\ reach (graph_of (hm s) L) q (fobj n)) -> ~ (exists e, In e l1 /\ reach (graph_of (hm s) L) (fobj e) (fobj n)) -> In (reg n) cs) /\
    (forall n b, In n fs -> In b (blocks L) -> reach (graph_of (hm s) L) (fobj n) (ptr b) -> In b (blocks L') /\ ~ free ls' (ba b) /\ forall a, ba b <= a < ba b + bsz b -> hm s' a = hm s a).
Proof.
  intros s L ls push roots ws fs calls HI VR VF. destruct (GC_spec s L ls push roots ws fs calls HI VR VF) as (N & s' & L' & ls' & M & M1 & fs1 & fs' & calls' & A & C & D1 & D2 & E1 & E2 & E3 & E4).
  destruct (fin_loop_spec _ _ _ _ _ _ _ (E4 N (Nat.le_refl N))) as [F _]. set (cs := rev (map reg (filter (fun n => negb (fmarked n)) fs1))) in F. subst calls'.
  exists N, s', L', ls', fs', cs. split; auto. split; [apply (co_inv _ _ _ _ _ _ C)|]. split; [|split].
  - intros o f I. unfold cs in I. apply in_rev in I. apply in_map_iff in I. destruct I as (n' & R & I). apply filter_In in I. destruct I as [I U]. apply in_split in I. destruct I as (l1' & l2' & Fs).
    assert (Ln : length fs1 = length fs) by (rewrite <- (map_length fobj fs1), E1, map_length; auto). assert (Lk : (length l1' < length fs)%nat) by (rewrite <- Ln, Fs, app_length; cbn [length]; lia).
    destruct (nth_error fs (length l1')) as [n|] eqn:Ne; [|apply nth_error_None in Ne; lia]. apply nth_error_split in Ne. destruct Ne as (l1 & l2 & Fs2 & L1).
    destruct (E3 l1 n l2 Fs2) as (k1 & k2 & n2 & K1 & K2 & K3 & K4 & K5).
    assert (n2 = n'). { rewrite Fs in K1. apply (f_equal (fun l => nth_error l (length l1'))) in K1. rewrite nth_error_app2 in K1 by lia. rewrite Nat.sub_diag in K1. rewrite nth_error_app2 in K1 by lia. replace (length l1' - length k1)%nat with O in K1 by lia. cbn in K1. congruence. }
    subst n2. unfold reg in R. inversion R; subst o f. split; [exists n; split; [rewrite Fs2; apply in_or_app; right; left; auto|unfold reg; congruence]|].
    intro Q. rewrite K3 in Q. apply D1 in Q. assert (X : fmarked n' = true) by (apply K5; auto). rewrite X in U. discriminate.
  - intros l1 n l2 Fs Nr Ne. destruct (E3 l1 n l2 Fs) as (k1 & k2 & n2 & K1 & K2 & K3 & K4 & K5). unfold cs. apply -> in_rev. apply in_map_iff. exists n2. split; [unfold reg; congruence|]. apply filter_In. split; [rewrite K1; apply in_or_app; right; left; auto|].
    destruct (fmarked n2) eqn:X; auto. exfalso. destruct (proj1 K5 eq_refl) as [Q|Q]; [apply Nr; apply D1; auto|apply Ne; auto].
  - intros n b I B R. apply (co_keep _ _ _ _ _ _ C); auto. apply D2. right. exists n. auto.
Qed.

(** Histories: the program registers finalizers, collections happen in whatever state the heap is in then, and the program ends. *)
Inductive event := Register (o f : Z) | Collect (s : hst) (roots ws : list Z) | Exit.
Fixpoint history (fuel : nat) (push : list (Z * Z) -> list (Z * Z)) (es : list event) (fs : list finnode) (calls : list (Z * Z)) : res (list finnode * list (Z * Z)) :=
  match es with
  | [] => Ok (fs, calls)
  | Register o f :: es => history fuel push es (RegisterFinalizer o f fs) calls
  | Collect s roots ws :: es => let* q := GC fuel push roots ws s fs calls in let '(_, fs, calls) := q in history fuel push es fs calls
  | Exit :: es => let* (fs, calls) := FINALL fuel push fs calls in history fuel push es fs calls
  end.
Definition registrations (es : list event) : list (Z * Z) := flat_map (fun e => match e with Register o f => [(o, f)] | _ => [] end) es.
(** In every history the calls made and the registrations still pending are together exactly the registrations made, by the program and by
    finalizers: no finalizer is called more often than it was registered, and none is lost. *)
Theorem C15_conservation : forall fuel push es fs calls, history fuel push es [] [] = Ok (fs, calls) -> Permutation (calls ++ map reg fs) (registrations es ++ made push calls).
Proof.
  intros fuel push es.
  assert (G : forall es fs0 c0 fs calls, history fuel push es fs0 c0 = Ok (fs, calls) -> Permutation (map reg fs ++ calls ++ made push c0) (registrations es ++ map reg fs0 ++ c0 ++ made push calls)).
  { clear es. induction es as [|ev es IH]; intros fs0 c0 fs calls E; cbn [history] in E; [inversion E; subst; reflexivity|]. destruct ev as [o f|s roots ws|].
    - rewrite (IH _ _ _ _ E). change (registrations (Register o f :: es)) with ((o, f) :: registrations es). unfold RegisterFinalizer. cbn [map app]. unfold reg at 1. cbn [fobj ffin]. symmetry. apply Permutation_middle.
    - destruct (GC fuel push roots ws s fs0 c0) as [[[s' fs1] c1]| | |] eqn:Q; try discriminate. rewrite bind_ok in E. cbv iota beta in E. destruct (GC_reg _ _ _ _ _ _ _ _ _ _ Q) as [_ P]. specialize (IH _ _ _ _ E).
      apply (Permutation_app_inv_r (made push c1)). cbn [registrations flat_map app]. fold (registrations es).
      transitivity ((map reg fs ++ calls ++ made push c1) ++ made push c0); [rewrite <- !app_assoc; do 2 apply Permutation_app_head; apply Permutation_app_comm|]. rewrite IH. rewrite <- !app_assoc. apply Permutation_app_head.
      transitivity ((map reg fs1 ++ c1 ++ made push c0) ++ made push calls); [rewrite <- !app_assoc; do 2 apply Permutation_app_head; apply Permutation_app_comm|]. rewrite P. rewrite <- !app_assoc. do 2 apply Permutation_app_head. apply Permutation_app_comm.
    - destruct (FINALL fuel push fs0 c0) as [[fs1 c1]| | |] eqn:Q; try discriminate. rewrite bind_ok in E. destruct (FINALL_spec _ _ _ _ _ _ Q) as [-> P]. specialize (IH _ _ _ _ E). cbn [map app] in IH.
      apply (Permutation_app_inv_r (made push c1)). cbn [registrations flat_map app]. fold (registrations es).
      transitivity ((map reg fs ++ calls ++ made push c1) ++ made push c0); [rewrite <- !app_assoc; do 2 apply Permutation_app_head; apply Permutation_app_comm|]. rewrite IH. rewrite <- !app_assoc. apply Permutation_app_head.
      transitivity ((c1 ++ made push c0) ++ made push calls); [rewrite <- !app_assoc; apply Permutation_app_head; apply Permutation_app_comm|]. rewrite P. rewrite <- !app_assoc. do 2 apply Permutation_app_head. apply Permutation_app_comm. }
  intros fs calls E. specialize (G _ _ _ _ _ E). cbn [made map app] in G. rewrite app_nil_r in G. rewrite Permutation_app_comm. exact G.
Qed.
(** At the end every registration has been called, exactly as often as it was made. *)
Corollary C15_all_called_at_exit : forall fuel push es fs calls, history fuel push (es ++ [Exit]) [] [] = Ok (fs, calls) -> fs = [] /\ Permutation calls (registrations es ++ made push calls).
Proof.
  intros fuel push es fs calls E. assert (F : fs = []).
  { cut (forall fs0 c0, history fuel push (es ++ [Exit]) fs0 c0 = Ok (fs, calls) -> fs = []); [intro H; apply (H _ _ E)|]. clear E. induction es as [|ev es IH]; intros fs0 c0 E; cbn [app history] in E.
    - destruct (FINALL fuel push fs0 c0) as [[fs1 c1]| | |] eqn:Q; try discriminate. rewrite bind_ok in E. destruct (FINALL_spec _ _ _ _ _ _ Q) as [-> _]. inversion E; auto.
    - destruct ev; [apply (IH _ _ E)| |]; match type of E with bind ?m _ = _ => destruct m as [q| | |]; try discriminate end; rewrite bind_ok in E; [destruct q as [[? ?] ?]|destruct q as [? ?]]; apply (IH _ _ E). }
  split; auto. pose proof (C15_conservation _ _ _ _ _ E) as P. subst fs. cbn [map] in P. rewrite app_nil_r in P. rewrite P at 1. apply Permutation_app_tail. unfold registrations. rewrite flat_map_app. cbn. rewrite app_nil_r. reflexivity.
Qed.
(** Without new registrations by finalizers the end is reached. *)
Theorem C15_exit_ends : forall push fs calls, (forall c, push c = []) -> FINALL (S (length fs)) push fs calls = Ok ([], rev (map reg fs) ++ calls).
Proof.
  intros push fs calls H. revert calls. induction fs as [|n fs IH]; intro calls; [reflexivity|]. cbn [length]. change (FINALL (S (S (length fs))) push (n :: fs) calls) with (FINALL (S (length fs)) push (pushed (push (reg n :: calls)) fs) (reg n :: calls)). rewrite H. cbn [pushed fold_left]. rewrite IH. cbn [map rev]. rewrite <- app_assoc. reflexivity.
Qed.
(** A finalizer that registers again for ever keeps the program from ending. *)
Theorem C15_exit_ends_refuted : ~ (forall push fs calls, exists fuel q, FINALL fuel push fs calls = Ok q).
Proof.
  intro H. destruct (H (fun _ => [(1, 2)]) [{| fobj := 1; ffin := 2; fmarked := true |}] []) as (fuel & q & E).
  assert (G : forall fuel calls, FINALL fuel (fun _ => [(1, 2)]) [{| fobj := 1; ffin := 2; fmarked := true |}] calls = Fuel) by (clear; induction fuel as [|f IH]; intro calls; [reflexivity|]; cbn [FINALL pushed fold_left RegisterFinalizer fst snd]; apply IH).
  rewrite G in E. discriminate.
Qed.
(** Two objects at 96 and 128 that point to each other, both with finalizers, and nothing else refers to them: the first in the list is finalized,
    the other waits, being reachable from it. *)
Example ex_finalize : match GC 50 (fun _ => []) [] [] exs [{| fobj := 96; ffin := 7; fmarked := true |}; {| fobj := 128; ffin := 8; fmarked := true |}] [] with
  | Ok (_, fs, calls) => map reg fs = [(128, 8)] /\ calls = [(96, 7)] | _ => False end.
Proof. vm_compute. auto. Qed.
Example ex_history : history 60 (fun c => if (length c =? 1)%nat then [(128, 9)] else []) [Register 128 8; Register 96 7; Collect exs [] []; Exit] [] [] = Ok ([], [(128, 8); (128, 9); (96, 7)]).
Proof. vm_compute. reflexivity. Qed.

Print Assumptions C10_new.
Print Assumptions C10_initial_heap.
Print Assumptions C10_initial_heap_refuted.
Print Assumptions C59_transparent.
Print Assumptions C59_transparent_enough_memory.
Print Assumptions C59_placement_irrelevant.
Print Assumptions C15_only_unreachable.
Print Assumptions C15_conservation.
Print Assumptions C15_all_called_at_exit.
Print Assumptions C15_exit_ends.
Print Assumptions C15_exit_ends_refuted.
