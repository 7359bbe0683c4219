(** Properties C07 and C08: the hash table.  Only statements; proofs are in
    HashProofs*.v.  Specification: HashSpec.v. *)
From Coq Require Import ZArith List Lia Bool Permutation.
From Verif Require Import Base HashModel HashSpec HashProofs2 HashProofs3.
Import ListNotations.
Open Scope Z_scope.

(** A checker for [hallowed], used by the examples only. *)
Definition memk (k : list Z) (t : list (Z * list Z * Z)) : bool := existsb (fun x => keys_eqb (t_key x) k) t.
Definition meme (e : Z) (t : list (Z * list Z * Z)) : bool := existsb (fun x => t_ent x =? e) t.
Definition purges (a : bool) (t : list (Z * list Z * Z)) :=
  t :: (if a && (8 <=? length t)%nat then [filter in_use t] else []).
Definition succs (s : bool * list (Z * list Z * Z)) (o : hop) :=
  let '(a, t) := s in
  match o with
  | HAdd e k l => map (fun t0 => (a, (e, k, l) :: t0)) (purges a t)
  | HChknAdd e k l => map (fun t0 => (a, if memk k t0 then t0 else (e, k, l) :: t0)) (purges a t)
  | HRemUnused => [(a, filter in_use t)]
  | HSetLock e l => [(a, set_lock e l t)]
  | HAuto b => [(b, t)]
  | _ => [(a, t)]
  end.
Definition hpreb (t : list (Z * list Z * Z)) (o : hop) : bool :=
  match o with
  | HAdd e k _ => negb (e =? 0) && negb (meme e t) && negb (memk k t)
  | HChknAdd e k _ => negb (e =? 0) && negb (meme e t)
  | HSetLock e _ => meme e t
  | _ => true
  end.
Fixpoint hallowedb (s : bool * list (Z * list Z * Z)) (ops : list hop) : bool :=
  match ops with
  | [] => true
  | o :: rest => hpreb (snd s) o && forallb (fun s' => hallowedb s' rest) (succs s o)
  end.

Lemma memk_spec : forall k t, memk k t = true <-> In k (map t_key t).
Proof.
  intros. unfold memk. rewrite existsb_exists, in_map_iff. split; intros [x [A B]]; exists x.
  - apply keys_eqb_spec in B. auto.
  - split; auto. apply keys_eqb_spec. auto.
Qed.
Lemma meme_spec : forall e t, meme e t = true <-> In e (map t_ent t).
Proof. intros. unfold meme. rewrite existsb_exists, in_map_iff. split; intros [x [A B]]; exists x; split; auto; lia. Qed.

Lemma purges_in : forall a t t0, purge a t t0 -> In t0 (purges a t).
Proof.
  intros a t t0 [->|[-> [L ->]]]; [left; auto|]. unfold purges. apply Nat.leb_le in L. rewrite L. right; left; auto.
Qed.

Lemma hallowedb_sound : forall ops s, hallowedb s ops = true -> hallowed s ops.
Proof.
  induction ops as [|o ops IH]; simpl; auto. intros [a t] H. apply andb_true_iff in H. destruct H as [H1 H2]. split.
  - destruct o; simpl in *; auto; rewrite ?andb_true_iff, ?negb_true_iff in H1; repeat split.
    + lia.
    + rewrite <- meme_spec. destruct H1 as [[_ H1] _]. congruence.
    + rewrite <- memk_spec. destruct H1 as [_ H1]. congruence.
    + lia.
    + rewrite <- meme_spec. destruct H1 as [_ H1]. congruence.
    + apply meme_spec. auto.
  - intros s' r R. apply IH. rewrite forallb_forall in H2. apply H2. inversion R; subst; cbn [succs]; try (left; reflexivity).
    + apply (in_map (fun t0 => (a, (e, k, l) :: t0))). apply purges_in; auto.
    + match goal with N : ~ In k (map t_key ?t0), P : purge a t ?t0 |- _ =>
        apply purges_in in P; apply (in_map (fun t0 => (a, if memk k t0 then t0 else (e, k, l) :: t0))) in P;
        destruct (memk k t0) eqn:E; [exfalso; apply N; apply memk_spec; auto|auto] end.
    + match goal with N : In ?x ?t0, P : purge a t ?t0 |- _ =>
        apply purges_in in P; apply (in_map (fun t0 => (a, if memk (t_key x) t0 then t0 else (e, t_key x, l) :: t0))) in P;
        destruct (memk (t_key x) t0) eqn:E; [auto|
          exfalso; assert (X : memk (t_key x) t0 = true) by (apply memk_spec; apply in_map; auto); congruence] end.
Qed.

(** ** C07 *)

(** Any history of fewer than 2^25 allowed calls, from Hash_New with any initial
    size up to 2^30 and with or without automatic removal, runs without a fault
    and returns what an interning table returns. *)
Theorem C07_hash_history : forall inisize auto hp ops,
  0 <= inisize <= 2 ^ 30 -> Z.of_nat (length ops) < 2 ^ 25 -> hallowed (auto, []) ops ->
  exists h st s rs, Hash_New inisize (if auto : bool then 1 else 0) = Ok h /\
    hrun (hp, h) ops = Ok (st, rs) /\ hrels (auto, []) ops s rs /\
    (** and at the end: *)
    (forall x, In x (snd s) -> Hash_Entry (fst st) (snd st) (t_key x) = Ok (t_ent x) /\ t_ent x <> 0) /\
    (forall k, ~ In k (map t_key (snd s)) -> Hash_Entry (fst st) (snd st) k = Ok 0).
Proof.
  intros inisize auto hp ops H1 H2 H3. destruct (history inisize auto hp ops H1 H2 H3) as [h [st [s [rs [A [B [C D]]]]]]].
  exists h, st, s, rs. repeat split; auto.
  - apply (hst_lookup st s x D). auto.
  - apply (hst_lookup st s x D). auto.
  - intros k K. apply (hst_lookup_none st s k D K).
Qed.
Print Assumptions C07_hash_history.

Definition C07_ops : list hop :=
  [HAdd 101 [1; 2] 1; HAdd 102 [2; 3] 0; HAdd 103 [3; 4] 1; HAdd 104 [4; 5] 0; HAdd 105 [5; 6] 1;
   HAdd 106 [6; 7] 0; HAdd 107 [7; 8] 1; HAdd 108 [8; 9] 0; HAdd 109 [9; 1] 0; HChknAdd 110 [3; 4] 0;
   HEntry [8; 9]; HEntry [9; 8]; HNum; HEntries].
Example C07_ex : hallowed (false, []) C07_ops /\
  (** the ninth addition doubles the table *)
  (h <- Hash_New 1 0 ;; '(st, rs) <- hrun (fun _ => None, h) C07_ops ;; Ok (length (h_entry (snd st)), skipn 9 rs)) =
  Ok (2%nat, [[103]; [108]; [0]; [9]; [109; 107; 105; 103; 101; 102; 104; 106; 108]]).
Proof. split; [apply hallowedb_sound; vm_compute; reflexivity|vm_compute; reflexivity]. Qed.

(** With automatic removal: the ninth addition first drops the unused entries. *)
Example C07_auto_ex : hallowed (true, []) C07_ops /\
  (h <- Hash_New 1 1 ;; '(st, rs) <- hrun (fun _ => None, h) C07_ops ;; Ok (length (h_entry (snd st)), skipn 9 rs)) =
  Ok (1%nat, [[103]; [0]; [0]; [5]; [109; 107; 105; 103; 101]]).
Proof. split; [apply hallowedb_sound; vm_compute; reflexivity|vm_compute; reflexivity]. Qed.

(** ** C08 *)

(** Enumeration lists every stored entity exactly once; Hash_Remove_Unused
    removes exactly the entries not in use, returns their number, and keeps all
    others retrievable with key and lock unchanged. *)
Theorem C08_hash_entries_remove : forall inisize auto hp ops,
  0 <= inisize <= 2 ^ 30 -> Z.of_nat (length ops) < 2 ^ 25 -> hallowed (auto, []) ops ->
  exists h st s rs, Hash_New inisize (if auto : bool then 1 else 0) = Ok h /\
    hrun (hp, h) ops = Ok (st, rs) /\ hrels (auto, []) ops s rs /\
    (exists r, Hash_Entries (fst st) (snd st) = Ok r /\ NoDup r /\ forall e, In e r <-> In e (map t_ent (snd s))) /\
    exists hp' h' c r', Hash_Remove_Unused (fst st) (snd st) = Ok (hp', h', c) /\
      c = Z.of_nat (length (filter (fun x => negb (in_use x)) (snd s))) /\
      Hash_Entries hp' h' = Ok r' /\ NoDup r' /\
      forall x, In x (snd s) ->
        (in_use x = true -> Hash_Entry hp' h' (t_key x) = Ok (t_ent x) /\ In (t_ent x) r' /\
                            exists n, hp' (t_ent x) = Some n /\ hn_key n = t_key x /\ hn_lock n = t_lock x) /\
        (in_use x = false -> Hash_Entry hp' h' (t_key x) = Ok 0 /\ ~ In (t_ent x) r').
Proof.
  intros inisize auto hp ops H1 H2 H3. destruct (history inisize auto hp ops H1 H2 H3) as [h [st [s [rs [A [B [C D]]]]]]].
  exists h, st, s, rs. split; auto. split; auto. split; auto. split.
  - destruct (hst_entries st s D) as [r [R1 [R2 R3]]]. exists r. split; auto. split; auto. intros e. split.
    + apply Permutation_in; auto.
    + apply Permutation_in. apply Permutation_sym; auto.
  - destruct (hst_rmu st s D) as [[hp' h'] [c [R1 [R2 R3]]]]. destruct (hst_entries _ _ R3) as [r' [Q1 [Q2 Q3]]].
    exists hp', h', c, r'. split; auto. split; auto. split; auto. split; auto. intros x X. split; intros U.
    + assert (X' : In x (filter in_use (snd s))) by (apply filter_In; auto).
      destruct (hst_lookup _ _ x R3 X') as [L1 [L2 L3]]. split; auto. split; auto.
      apply (Permutation_in _ (Permutation_sym Q3)). apply in_map. auto.
    + split.
      * apply (hst_lookup_none _ _ (t_key x) R3). apply (in_use_dec_key st s x D X U).
      * intro Y. apply (Permutation_in _ Q3) in Y. simpl in Y. apply in_map_iff in Y. destruct Y as [y [Y1 Y2]].
        apply filter_In in Y2. destruct Y2 as [Y2 Y3].
        destruct D as [p [t [bin [I _]]]]. pose proof (NoDup_map_inj _ _ t_ent _ _ _ (hi_nd _ _ _ _ _ _ I) Y2 X Y1). subst. congruence.
Qed.
Print Assumptions C08_hash_entries_remove.

Example C08_ex : hallowed (false, []) (C07_ops ++ [HSetLock 106 17; HSetLock 107 16; HRemUnused; HEntries]) /\
  (h <- Hash_New 1 0 ;; '(st, rs) <- hrun (fun _ => None, h) (C07_ops ++ [HSetLock 106 17; HSetLock 107 16; HRemUnused; HEntries]) ;;
   Ok (skipn 16 rs)) = Ok [[5]; [105; 103; 101; 106]].
Proof. split; [apply hallowedb_sound; vm_compute; reflexivity|vm_compute; reflexivity]. Qed.

(** Lock words: as long as the number of outstanding locks stays within 0..14
    the low four bits are that number, other bits are untouched, and the entity
    counts as locked exactly while it is not 0. *)
Fixpoint lock_run (w : Z) (ops : list bool) : Z :=
  match ops with [] => w | b :: t => lock_run (if b then Hash_Lock w else Hash_UnLock w) t end.
Fixpoint lock_ok (c : Z) (ops : list bool) : option Z :=
  match ops with
  | [] => Some c
  | b :: t => let c' := if b then c + 1 else c - 1 in if (0 <=? c') && (c' <=? 14) then lock_ok c' t else None
  end.

Theorem C08_lock_count : forall ops q c c', 0 <= c <= 14 -> lock_ok c ops = Some c' ->
  lock_run (q * 16 + c) ops = q * 16 + c' /\ Hash_IsLocked (lock_run (q * 16 + c) ops) = negb (c' =? 0).
Proof.
  assert (L : forall ops q c c', 0 <= c <= 14 -> lock_ok c ops = Some c' -> lock_run (q * 16 + c) ops = q * 16 + c' /\ 0 <= c' <= 14).
  { induction ops as [|b ops IH]; simpl; intros q c c' Hc H; [inversion H; subst; auto|].
    destruct ((0 <=? _) && _) eqn:E in H; [|discriminate].
    destruct b; [rewrite lock_step by lia|rewrite unlock_step by lia]; apply IH; auto; lia. }
  intros. destruct (L ops q c c' H H0) as [A B]. split; auto. rewrite A, locked_mod.
  replace (q * 16 + c') with (c' + q * 16) by lia. rewrite Z.mod_add, Z.mod_small by lia. auto.
Qed.
Print Assumptions C08_lock_count.

Example C08_lock_ex : lock_ok 2 [true; false; false; true; false] = Some 1 /\ lock_run 34 [true; false; false; true; false] = 33.
Proof. vm_compute. auto. Qed.

(** Without any bound: the low four bits are a counter that stays in 0..15, is
    not lowered below 0 and sticks at 15; the other bits are kept. *)
Fixpoint lock_sat (c : Z) (ops : list bool) : Z :=
  match ops with
  | [] => c
  | b :: t => lock_sat (if c =? 15 then 15 else if b then c + 1 else Z.max 0 (c - 1)) t
  end.

Theorem C08_lock_word : forall ops q c, 0 <= c <= 15 -> lock_run (q * 16 + c) ops = q * 16 + lock_sat c ops /\ 0 <= lock_sat c ops <= 15.
Proof.
  assert (D : forall q c, 0 <= c <= 15 -> Z.land (q * 16 + c) 15 = c /\ Z.land (q * 16 + c) (Z.lnot 15) = q * 16).
  { intros q c H. assert (M : Z.land (q * 16 + c) 15 = c).
    { change 15 with (Z.ones 4). rewrite Z.land_ones by lia. change (2 ^ 4) with 16. rewrite Z.add_comm, Z.mod_add, Z.mod_small; lia. }
    split; auto. assert (X : Z.land (q * 16 + c) (Z.lnot 15) = Z.ldiff (q * 16 + c) 15) by reflexivity.
    rewrite X. change 15 with (Z.ones 4) at 1. rewrite Z.ldiff_ones_r by lia. rewrite Z.shiftl_mul_pow2, Z.shiftr_div_pow2 by lia.
    change (2 ^ 4) with 16. rewrite Z.div_add_l, Z.div_small by lia. lia. }
  assert (O : forall q c, 0 <= c <= 15 -> Z.lor (q * 16) c = q * 16 + c).
  { intros q c H. change 16 with (2 ^ 4). apply lor_add; lia. }
  induction ops as [|b ops IH]; intros q c H; [simpl; auto|].
  cbn [lock_run fold_left lock_sat]. destruct (D q c H) as [D1 D2].
  assert (E : (if b then Hash_Lock (q * 16 + c) else Hash_UnLock (q * 16 + c)) = q * 16 + (if c =? 15 then 15 else if b then c + 1 else Z.max 0 (c - 1)) /\
     0 <= (if c =? 15 then 15 else if b then c + 1 else Z.max 0 (c - 1)) <= 15).
  { unfold Hash_Lock, Hash_UnLock. rewrite D1, D2. destruct b; destruct (c =? 15) eqn:E1.
    - replace (c <? 15) with false by lia. rewrite O by lia. lia.
    - replace (c <? 15) with true by lia. rewrite O by lia. lia.
    - replace (c <? 15) with false by lia. rewrite O by lia. lia.
    - replace (c <? 15) with true by lia. destruct (c >? 0) eqn:E2; rewrite O by lia; lia. }
  destruct E as [E1 E2]. specialize (IH q _ E2). cbn [lock_run] in IH. rewrite E1. auto.
Qed.
Print Assumptions C08_lock_word.

Example C08_lock_word_ex : lock_run 32 [false; false; true] = 33 /\ lock_sat 0 [false; false; true] = 1 /\ lock_run 46 [true; true; false] = 47.
Proof. vm_compute. auto. Qed.

(** Without that bound the balance is lost: after fifteen locks the word is
    locked for ever, however often it is unlocked. *)
Theorem C08_lock_balance_refuted : exists w n, Hash_IsLocked w = false /\
  Hash_IsLocked (lock_run w (repeat true n ++ repeat false n)) = true.
Proof. exists 0, 15%nat. vm_compute. auto. Qed.
Print Assumptions C08_lock_balance_refuted.
