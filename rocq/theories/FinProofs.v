From Verif Require Import Base ArrZ HeapModel HeapSpec MarkProofs LayProofs HeapProps GCProofs.
From Coq Require Import Permutation.

Definition reg (n : finnode) : Z * Z := (fobj n, ffin n).
(** The registrations made by finalizers in the course of [calls] (latest first). *)
Fixpoint made (push : list (Z * Z) -> list (Z * Z)) (calls : list (Z * Z)) : list (Z * Z) :=
  match calls with [] => [] | _ :: r => push calls ++ made push r end.

Lemma pushed_app : forall l fs, exists q, pushed l fs = q ++ fs /\ forallb fmarked q = true /\ Permutation (map reg q) l.
Proof.
  induction l as [|r l IH]; intro fs; [exists []; auto|]. cbn [pushed fold_left]. destruct (IH (RegisterFinalizer (fst r) (snd r) fs)) as (q & E & F & G). unfold pushed in E. rewrite E. exists (q ++ [{| fobj := fst r; ffin := snd r; fmarked := true |}]). rewrite <- app_assoc. split; auto. rewrite forallb_app, F. split; auto.
  rewrite map_app. cbn [map]. unfold reg at 2. cbn [fobj ffin]. rewrite <- surjective_pairing. rewrite Permutation_app_comm. cbn [app]. constructor. auto.
Qed.
Lemma filter_marked : forall q, forallb fmarked q = true -> filter (fun n => negb (fmarked n)) q = [].
Proof. induction q as [|n q IH]; auto. cbn [forallb filter]. intro H. apply andb_true_iff in H. destruct H as [-> H]. cbn. auto. Qed.

(** [Finalize] calls the unmarked nodes in list order; the others and the new ones remain. *)
Lemma fin_loop_spec : forall fuel push pre rest calls fs' calls', fin_loop fuel push pre rest calls = Ok (fs', calls') ->
  calls' = rev (map reg (filter (fun n => negb (fmarked n)) rest)) ++ calls /\
  Permutation (map reg fs' ++ calls' ++ made push calls) (map reg (pre ++ rest) ++ calls ++ made push calls').
Proof.
  induction fuel as [|f IH]; intros push pre rest calls fs' calls' E; [discriminate|]. cbn [fin_loop] in E. destruct rest as [|n r].
  - inversion E; subst. cbn. split; auto. rewrite app_nil_r. rewrite map_rev. apply Permutation_app_tail. apply Permutation_sym, Permutation_rev.
  - destruct (fmarked n) eqn:Mk; cbn [negb] in E.
    + destruct (IH _ _ _ _ _ _ E) as [A B]. cbn [filter]. rewrite Mk. cbn [negb]. split; auto. rewrite B. apply Permutation_app_tail. apply Permutation_map. apply Permutation_middle.
    + change (fobj n, ffin n) with (reg n) in E. cbn [filter]. rewrite Mk. cbn [negb map rev].
      assert (G : forall pre' rest', fin_loop f push pre' rest' (reg n :: calls) = Ok (fs', calls') -> filter (fun n => negb (fmarked n)) rest' = filter (fun n => negb (fmarked n)) r -> Permutation (map reg (pre' ++ rest')) (push (reg n :: calls) ++ map reg (pre ++ r)) ->
        calls' = (rev (map reg (filter (fun n0 => negb (fmarked n0)) r)) ++ [reg n]) ++ calls /\ Permutation (map reg fs' ++ calls' ++ made push calls) (map reg (pre ++ n :: r) ++ calls ++ made push calls')).
      { intros pre' rest' E' F P. destruct (IH _ _ _ _ _ _ E') as [A B]. rewrite F in A. split; [rewrite <- app_assoc; exact A|].
        cbn [made] in B. apply (Permutation_app_inv_l (push (reg n :: calls))).
        transitivity (map reg fs' ++ calls' ++ push (reg n :: calls) ++ made push calls).
        - rewrite !app_assoc. apply Permutation_app_tail. rewrite <- !app_assoc. apply Permutation_app_comm_assoc || idtac. rewrite (Permutation_app_comm (push (reg n :: calls)) (map reg fs' ++ calls')) || idtac. rewrite ?app_assoc. rewrite (Permutation_app_comm _ (push (reg n :: calls))). rewrite <- ?app_assoc. reflexivity.
        - rewrite B, P. rewrite <- app_assoc. apply Permutation_app_head. rewrite !map_app. cbn [map]. rewrite <- !app_assoc. apply Permutation_app_head. cbn [app]. rewrite <- (Permutation_middle (map reg r) (calls ++ made push calls') (reg n)). reflexivity. }
      destruct pre as [|p0 pre'].
      * apply (G _ _ E).
        -- destruct (pushed_app (push (reg n :: calls)) r) as (q & Q1 & Q2 & _). rewrite Q1, filter_app, filter_marked by auto. auto.
        -- destruct (pushed_app (push (reg n :: calls)) r) as (q & Q1 & _ & Q3). rewrite Q1. cbn [app]. rewrite map_app. apply Permutation_app_tail. auto.
      * apply (G _ _ E); auto. destruct (pushed_app (push (reg n :: calls)) (rev (p0 :: pre'))) as (q & Q1 & _ & Q3). rewrite Q1. rewrite !map_app, map_rev, map_app. rewrite <- Permutation_rev. rewrite <- app_assoc. rewrite Q3. apply Permutation_app_head. apply Permutation_app_tail. rewrite map_rev. apply Permutation_sym, Permutation_rev.
Qed.
Lemma FINALL_spec : forall fuel push fs calls fs' calls', FINALL fuel push fs calls = Ok (fs', calls') -> fs' = [] /\ Permutation (calls' ++ made push calls) (map reg fs ++ calls ++ made push calls').
Proof.
  induction fuel as [|f IH]; intros push fs calls fs' calls' E; [discriminate|]. cbn [FINALL] in E. destruct fs as [|n r]; [inversion E; subst; auto|]. change (fobj n, ffin n) with (reg n) in E.
  destruct (IH _ _ _ _ _ E) as [A B]. split; auto. destruct (pushed_app (push (reg n :: calls)) r) as (q & Q1 & _ & Q3). rewrite Q1, map_app, Q3 in B. cbn [made] in B.
  apply (Permutation_app_inv_l (push (reg n :: calls))). transitivity (calls' ++ push (reg n :: calls) ++ made push calls).
  - rewrite !app_assoc. apply Permutation_app_tail. apply Permutation_app_comm.
  - rewrite B. rewrite <- app_assoc. apply Permutation_app_head. cbn [map app]. apply Permutation_sym, Permutation_middle.
Qed.
Lemma CheckFin_reg : forall fuel fs m m' fs', CheckFin fuel m fs = Ok (m', fs') -> map reg fs' = map reg fs.
Proof.
  intros fuel. induction fs as [|n fs IH]; intros m m' fs' E; cbn [CheckFin] in E; [inversion E; auto|].
  destruct (get m (fobj n - 8)) as [tag| | |]; try discriminate. rewrite bind_ok in E. destruct (if Z.odd tag then Ok m else Mark fuel m (fobj n)) as [m1| | |]; try discriminate. rewrite bind_ok in E. destruct (CheckFin fuel m1 fs) as [[m2 r]| | |] eqn:C; try discriminate. rewrite bind_ok in E. inversion E; subst. cbn [map]. f_equal. apply (IH _ _ _ C).
Qed.
Lemma GC_reg : forall fuel push roots ws s fs calls s' fs' calls', GC fuel push roots ws s fs calls = Ok (s', fs', calls') ->
  (exists cs, calls' = cs ++ calls) /\ Permutation (map reg fs' ++ calls' ++ made push calls) (map reg fs ++ calls ++ made push calls').
Proof.
  intros fuel push roots ws s fs calls s' fs' calls' E. unfold GC in E. destruct (mark_roots fuel (hm s) roots) as [m1| | |]; try discriminate. rewrite bind_ok in E. destruct (MarkStack fuel (setmem m1 s) ws) as [m2| | |]; try discriminate. rewrite bind_ok in E.
  destruct (CheckFin fuel m2 fs) as [[m3 fs1]| | |] eqn:C; try discriminate. rewrite bind_ok in E. destruct (Scan fuel (setmem m3 s)) as [s1| | |]; try discriminate. rewrite bind_ok in E. destruct (Finalize fuel push fs1 calls) as [[fs2 c2]| | |] eqn:F; try discriminate. rewrite bind_ok in E. inversion E; subst.
  destruct (fin_loop_spec _ _ _ _ _ _ _ F) as [A B]. cbn [app] in B. rewrite (CheckFin_reg _ _ _ _ _ C) in B. split; auto. exists (rev (map reg (filter (fun n => negb (fmarked n)) fs1))). auto.
Qed.
