(** C08, C09: type tests and type-bound procedures. *)
From Verif Require Import Base ArrZ TypeModel TypeSpec TypeProofs.

(** The descriptors of the program's types before the modules are initialised: at [T i], not overlapping, with the contents the C compiler
    gave them. *)
Record image (env : list tobj) (T size : nat -> Z) (m : wmem) : Prop := {
  im_nz : forall i o, get_obj env i = Some o -> T i <> 0;
  im_dis : forall i j o p, get_obj env i = Some o -> get_obj env j = Some p -> i <> j -> T i < T j - 25 - t_n p \/ T j < T i - 25 - t_n o;
  im_desc : forall i o, get_obj env i = Some o -> fresh_desc m (T i) (t_n o) (size i)
}.
Lemma image_hyps : forall ds T size m, sensible ds -> (forall i k, depth ds i k -> k <= 16) -> image (compile ds []) T size m ->
  placed_types ds T /\ (forall i, (i < length ds)%nat -> fresh_desc m (T i) (t_n (O ds i)) (size i)) /\ compile ds [] = envk ds (length ds).
Proof.
  intros ds T size m SE D [I1 I2 I3]. assert (E : compile ds [] = envk ds (length ds)) by (unfold envk; rewrite firstn_all; auto). rewrite E in *.
  assert (G : forall i, (i < length ds)%nat -> get_obj (envk ds (length ds)) i = Some (O ds i)) by (intros i I; apply get_O; auto; lia).
  split; [|split]; auto. constructor.
  - intros i I. apply (I1 i _ (G i I)).
  - intros i j I J N. unfold TPROC0OFF. apply (I2 i j _ _ (G i I) (G j J) N).
  - intros i I. apply (D i). apply depth_lev; auto.
Qed.
Lemma get_lt : forall env i o, get_obj env i = Some o -> (i < length env)%nat.
Proof. induction env as [|p r IH]; intros i o E; cbn [get_obj] in E; [discriminate|]. cbn [length]. destruct (i =? length r)%nat eqn:Q; [apply Nat.eqb_eq in Q; lia|]. pose proof (IH i o E). lia. Qed.

(** Once the types are initialised, the test "x IS T" that the compiler emits for a variable whose dynamic type is i and for the type j gives TRUE
    exactly if i is j or an extension of it; the guard yields the pointer exactly then and halts with code -5 otherwise.  The number of proper base
    types must not exceed 16. *)
Theorem C08_type_test : forall ds T size modul m0 next, sensible ds -> (forall i k, depth ds i k -> k <= 16) -> image (compile ds []) T size m0 ->
  exists N m next', (forall fuel, (N <= fuel)%nat -> init_types fuel T size modul (compile ds []) (m0, next) = Ok (m, next')) /\
    forall i j oj, (i < length ds)%nat -> get_obj (compile ds []) j = Some oj ->
      (IS m (T i) (T j) (t_lev oj) = true <-> extends ds i j) /\
      (forall p, (extends ds i j /\ GUARD m (T i) (T j) (t_lev oj) p = Ok p) \/ (~ extends ds i j /\ GUARD m (T i) (T j) (t_lev oj) p = Trap (-5))).
Proof.
  intros ds T size modul m0 next SE D IM. destruct (image_hyps ds T size m0 SE D IM) as (PT & FR & E). rewrite E in *.
  destruct (init_all ds SE T size modul PT (length ds) m0 next (Nat.le_refl _) FR) as (N & m & next' & A & B & _). exists N, m, next'. split; auto. intros i j oj I Gj.
  assert (J : (j < length ds)%nat) by (apply get_lt in Gj; rewrite envk_len in Gj; auto). rewrite get_O in Gj by (auto; lia). inversion Gj; subst oj. destruct (B i I) as [B1 B2 _ _]. destruct (depth_lev ds SE j J) as [_ Jp]. pose proof (pt_lev ds T PT j J) as Jl. pose proof (pt_lev ds T PT i I) as Il.
  assert (X : IS m (T i) (T j) (t_lev (O ds j)) = true <-> extends ds i j).
  { unfold IS. replace (T i - (BASEOFF - t_lev (O ds j))) with (T i - BASEOFF + t_lev (O ds j)) by lia. split.
    - intro Q. apply Z.eqb_eq in Q. destruct (Z_lt_le_dec (t_lev (O ds i)) (t_lev (O ds j))) as [L|L]; [rewrite B2 in Q by lia; exfalso; apply (pt_nz ds T PT j J); auto|].
      destruct (anc_at ds SE i (t_lev (O ds j)) I ltac:(lia)) as (a & A1 & A2). rewrite <- A2 in Q. rewrite (B1 a A1) in Q. destruct (Nat.eq_dec a j) as [->|Ne]; auto. destruct (extends_lt ds SE i a A1) as [_ La]. pose proof (nu_pos ds a (FF_numbered ds SE a La)). pose proof (nu_pos ds j (FF_numbered ds SE j J)). pose proof (pt_dis ds T PT a j La J Ne). unfold TPROC0OFF in *. lia.
    - intro Q. apply Z.eqb_eq. apply B1. auto. }
  split; auto. intro p. unfold GUARD. destruct (IS m (T i) (T j) (t_lev (O ds j))) eqn:Q; [left; split; auto; apply X; auto|right; split; auto]. intro H. apply X in H. discriminate.
Qed.

(** Finding: the compiler does not limit the depth of extension.  With 17 proper base types the program halts with code -15 when it starts,
    because the 18th entry of the base table overwrites the block size. *)
Definition deep (n : nat) : list tdecl := {| d_base := None; d_procs := [] |} :: map (fun i => {| d_base := Some i; d_procs := [] |}) (seq 0 n).
Definition exT : nat -> Z := fun i => 1000 * (Z.of_nat i + 1).
Definition exW : wmem := fun a => if a mod 1000 =? 0 then 8 else if a mod 1000 =? 975 then 1 else 0.
Theorem C08_depth_refuted : (exists m next, init_types 10 exT (fun _ => 8) 5 (compile (deep 16) []) (exW, 0) = Ok (m, next)) /\ init_types 10 exT (fun _ => 8) 5 (compile (deep 17) []) (exW, 0) = Trap (-15).
Proof. split; [eexists; eexists|]; vm_compute; reflexivity. Qed.

(** A call of a type-bound procedure [name] through a variable of static type s: the compiler finds a number for it if s or a base of s declares the
    procedure.  Whatever the dynamic type i, an extension of s, the call executes the body declared for i, or else the one of the nearest base type. *)
Theorem C09_dispatch : forall ds T size modul m0 next, sensible ds -> (forall i k, depth ds i k -> k <= 16) -> image (compile ds []) T size m0 ->
  exists N m next', (forall fuel, (N <= fuel)%nat -> init_types fuel T size modul (compile ds []) (m0, next) = Ok (m, next')) /\
    forall s name body0, (s < length ds)%nat -> body_for ds name s body0 -> exists num, FindField (compile ds []) s name = Some num /\
      forall i, extends ds i s -> exists body, body_for ds name i body /\ SEND m (T i) num = body /\ forall b, body_for ds name i b -> b = body.
Proof.
  intros ds T size modul m0 next SE D IM. destruct (image_hyps ds T size m0 SE D IM) as (PT & FR & E). rewrite E in *.
  destruct (init_all ds SE T size modul PT (length ds) m0 next (Nat.le_refl _) FR) as (N & m & next' & A & B & _). exists N, m, next'. split; auto. intros s name body0 S0 V.
  destruct (visible_FF ds SE name s body0 V S0) as (num & Q). exists num. split; [rewrite FindField_FF by (auto; lia); auto|]. intros i X.
  assert (I : (i < length ds)%nat) by (destruct X as [i I|i b j Eb X]; auto; apply (base_lt ds i b); auto).
  pose proof (in_proc ds T m i (B i I) name num (FF_ext ds SE i s name num X Q)) as H. unfold SEND. exists (m (T i - (TPROC0OFF + num))). replace (T i - (TPROC0OFF + num)) with (T i - TPROC0OFF - num) by lia. split; auto. split; auto. intros b Hb. apply (body_for_fun ds SE name i); auto.
Qed.

(** Non-vacuity: A with f, g; B(A) with g, h; C(B) with f; D(A) with k, f. *)
Definition exds : list tdecl :=
  [{| d_base := None; d_procs := [(10, 101); (11, 102)] |}; {| d_base := Some 0%nat; d_procs := [(11, 203); (12, 204)] |}; {| d_base := Some 1%nat; d_procs := [(10, 305)] |}; {| d_base := Some 0%nat; d_procs := [(13, 406); (10, 407)] |}].
Definition exW2 : wmem := fun a => if a mod 1000 =? 0 then 8 else if a mod 1000 =? (if a / 1000 =? 0 then 973 else 972) then 1 else 0.
Example exds_numbers : map t_n (compile exds []) = [3; 3; 3; 2] /\ map t_lev (compile exds []) = [1; 2; 1; 0].
Proof. vm_compute. auto. Qed.
Example exds_sensible : sensible exds.
Proof.
  constructor.
  - intros i b E. destruct i as [|[|[|[|[|i]]]]]; cbn in E; inversion E; subst; lia.
  - intros [|[|[|[|[|i]]]]]; cbn; repeat constructor; cbn; intuition lia.
  - intros [|[|[|[|[|i]]]]] name body; cbn; unfold EOM; intros H; repeat (destruct H as [H|H]; [inversion H; lia|]); destruct H.
Qed.
Example exds_depth : forall i k, depth exds i k -> k <= 16.
Proof. intros i k D. assert (H : k <= 2 - (if (i =? 2)%nat then 0 else if (i =? 1)%nat then 1 else if (i =? 3)%nat then 1 else 2)); [|destruct (i =? 2)%nat, (i =? 1)%nat, (i =? 3)%nat; lia].
  induction D as [i I B|i b k B D IH]; [destruct (i =? 2)%nat, (i =? 1)%nat, (i =? 3)%nat; lia|]. destruct i as [|[|[|[|[|i]]]]]; cbn in B; inversion B; subst; cbn in *; lia. Qed.
Example exds_image : image (compile exds []) exT (fun _ => 8) exW2.
Proof.
  assert (G : forall i o, get_obj (compile exds []) i = Some o -> (i = 0%nat /\ t_n o = 2) \/ ((i = 1 \/ i = 2 \/ i = 3)%nat /\ t_n o = 3)).
  { intros i o E. destruct i as [|[|[|[|i]]]]; cbn in E; inversion E; subst; cbn [t_n]; auto. }
  assert (W : forall a q r, a = 1000 * q + r -> 0 <= r < 1000 -> exW2 a = if r =? 0 then 8 else if r =? (if q =? 0 then 973 else 972) then 1 else 0).
  { intros a q r -> R. unfold exW2. replace ((1000 * q + r) mod 1000) with r by (rewrite Z.add_comm, Z.mul_comm, Z_mod_plus_full; symmetry; apply Z.mod_small; lia). replace ((1000 * q + r) / 1000) with q by (rewrite Z.mul_comm, Z.div_add_l by lia; rewrite (Z.div_small r) by lia; lia). auto. }
  constructor.
  - intros i o _. unfold exT. lia.
  - intros i j o p Gi Gj N. destruct (G _ _ Gi) as [[_ ->]|[_ ->]], (G _ _ Gj) as [[_ ->]|[_ ->]]; unfold exT; lia.
  - intros i o Gi. assert (Q : t_n o = if (i =? 0)%nat then 2 else 3) by (destruct (G _ _ Gi) as [[-> ->]|[[ ->|[ ->| ->]] ->]]; auto). assert (Z0 : (Z.of_nat i =? 0) = (i =? 0)%nat) by (destruct i; auto).
    constructor; unfold TPROC0OFF, BASEOFF, exT; rewrite ?Q.
    + rewrite (W _ (Z.of_nat i) (975 - (if (i =? 0)%nat then 2 else 3))) by (destruct (i =? 0)%nat; lia). rewrite Z0. destruct (i =? 0)%nat; reflexivity.
    + intros k K. rewrite (W _ (Z.of_nat i) (975 - k)) by (destruct (i =? 0)%nat; lia). rewrite Z0. replace (975 - k =? 0) with false by (destruct (i =? 0)%nat; lia). replace (975 - k =? (if (i =? 0)%nat then 973 else 972)) with false by (destruct (i =? 0)%nat; lia). auto.
    + intros l L. rewrite (W _ (Z.of_nat i) (983 + l)) by lia. replace (983 + l =? 0) with false by lia. replace (983 + l =? (if Z.of_nat i =? 0 then 973 else 972)) with false by (destruct (Z.of_nat i =? 0); lia). auto.
    + rewrite (W _ (Z.of_nat i) 999) by lia. destruct (Z.of_nat i =? 0); reflexivity.
    + rewrite (W _ (Z.of_nat i + 1) 0) by lia. auto.
Qed.
Example exds_dispatch : match init_types 10 exT (fun _ => 8) 5 (compile exds []) (exW2, 0) with
  | Ok (m, _) => (SEND m (exT 2) 0, SEND m (exT 2) 1, SEND m (exT 2) 2, SEND m (exT 3) 0, SEND m (exT 3) 1, IS m (exT 2) (exT 1) 1, IS m (exT 3) (exT 1) 1) = (305, 203, 204, 407, 102, true, false) | _ => False end.
Proof. vm_compute. reflexivity. Qed.
Print Assumptions C08_type_test. Print Assumptions C08_depth_refuted. Print Assumptions C09_dispatch.
