(** Properties C01-C06: lists of pointers.  Only statements; proofs are in
    ListProofs*.v.  Specifications: ListSpec.v (sequences) and ListHist.v
    (histories, walks). *)
From Coq Require Import ZArith List Lia Bool Sorting.Sorted.
From Verif Require Import Base ListModel ListSpec ListHist ListProofs3 ListProofs4.
Import ListNotations.
Open Scope Z_scope.

(** A list built from List_New(0) by a history, for the examples. *)
Definition mk (ops : list lop) : LList :=
  match List_New 0 with
  | Ok l => match mrun l ops with Ok (l', _) => l' | _ => l end
  | _ => mkL 0 None []
  end.

Ltac reach :=
  match goal with |- reachable (mk ?ops) _ =>
    exists 0, ops; eexists; eexists;
    split; [vm_compute; reflexivity|]; split; [vm_compute; reflexivity|];
    split; [repeat split; simpl; try lia|];
    split; [vm_compute; reflexivity|]; split; [vm_compute; reflexivity|vm_compute; reflexivity] end.

(** ** C01 *)

(** From List_New, every history of fewer than 2^27 allowed calls is carried
    out without a fault and every output is that of the sequence. *)
Theorem C01_list_history : forall n, n < 2 ^ 30 ->
  exists l0, List_New n = Ok l0 /\ behaves l0 [] (2 ^ 27 - 1).
Proof. exact New_behaves. Qed.
Print Assumptions C01_list_history.

Example C01_ex : let ops := [LAdd 5; LAdd 7; LAdd 9; LRemi 1; LInserti 8 1; LChknAdd 9; LReplace 9 4;
                             LWalk; LEntry 2; LLocate 4; LCompress; LRem 5; LWalk; LNum] in
  lallowed [] ops /\
  (l0 <- List_New 1 ;; '(l, outs) <- mrun l0 ops ;; Ok outs) = Ok (snd (lrun [] ops)) /\
  nth 7 (snd (lrun [] ops)) [] = [5; 8; 4] /\ nth 12 (snd (lrun [] ops)) [] = [8; 4].
Proof. split; [repeat split; simpl; lia|vm_compute; auto]. Qed.

(** List_Remi_Raw takes out the entry List_Entry_Raw shows at that position. *)
Theorem C01_remi_raw : forall l s j, reachable l s -> Z.of_nat j < List_Size_Raw l ->
  exists x l', List_Entry_Raw l (Z.of_nat j) = Ok x /\ List_Remi_Raw l (Z.of_nat j) = Ok (l', 1) /\
    List_Size_Raw l' = List_Size_Raw l /\
    (x = 0 -> behaves l' s (2 ^ 27 - 1 - List_Size_Raw l')) /\
    (x <> 0 -> nth_error s (raw_before l j) = Some x /\
               behaves l' (delete_at (raw_before l j) s) (2 ^ 27 - 1 - List_Size_Raw l')).
Proof. exact Remi_Raw_spec. Qed.
Print Assumptions C01_remi_raw.

Example C01_remi_raw_ex : let l := mk [LAdd 5; LAdd 7; LAdd 9; LRem 5] in
  reachable l [7; 9] /\ List_Size_Raw l = 3 /\ List_Entry_Raw l 2 = Ok 9 /\ raw_before l 2 = 1%nat.
Proof. split; [reach|vm_compute; auto]. Qed.

(** ** C02 *)

(** Missing for the full statement: later histories when the source has gaps
    and the destination has none (false, see below). *)
Theorem C02_list_cat_partial : forall d sd s ss, reachable d sd -> reachable s ss ->
  List_Size_Raw d + List_Size_Raw s < 2 ^ 27 ->
  exists d', List_Cat d s = Ok d' /\ List_Size_Raw d' = List_Size_Raw d + List_Size_Raw s /\
    (forall o, is_query o = true -> lpre (sd ++ ss) o -> mstep d' o = Ok (d', snd (lstep (sd ++ ss) o))) /\
    (List_Size_Raw s = List_Num_Entries s \/ List_Size_Raw d <> List_Num_Entries d ->
     behaves d' (sd ++ ss) (2 ^ 27 - 1 - List_Size_Raw d')).
Proof. exact Cat_spec. Qed.
Print Assumptions C02_list_cat_partial.

Example C02_ex : let d := mk [LAdd 1; LAdd 2; LRem 1] in let s := mk [LAdd 3; LAdd 4; LAdd 5; LRem 4] in
  reachable d [2] /\ reachable s [3; 5] /\ List_Size_Raw d <> List_Num_Entries d /\
  (d' <- List_Cat d s ;; List_Walk d') = Ok [2; 3; 5].
Proof. split; [reach|]. split; [reach|]. vm_compute. split; auto. discriminate. Qed.

(** A destination without gaps, a source with a gap, then one removal: after it
    List_Entry(1) returns NULL although the list has two entries. *)
Theorem C02_list_cat_refuted : exists d sd s ss d' ops outs l',
  reachable d sd /\ reachable s ss /\ List_Cat d s = Ok d' /\ lallowed (sd ++ ss) ops /\
  mrun d' ops = Ok (l', outs) /\ outs <> snd (lrun (sd ++ ss) ops).
Proof.
  exists (mk [LAdd 1]), [1], (mk [LAdd 9; LAdd 2; LAdd 3; LRem 9]), [2; 3]. eexists. exists [LRem 3; LNum; LEntry 1].
  eexists. eexists. split; [reach|]. split; [reach|]. split; [vm_compute; reflexivity|].
  split; [repeat split; simpl; lia|]. split; [vm_compute; reflexivity|]. vm_compute. discriminate.
Qed.
Print Assumptions C02_list_cat_refuted.

(** ** C03 *)

(** The full statement (insert before the first occurrence of b4) is false. *)
Theorem C03_list_insert_refuted : exists l s x b l' r,
  reachable l s /\ In b s /\ x <> 0 /\ List_Insert l x b = Ok l' /\ List_Walk l' = Ok r /\ r <> insert_before x b s.
Proof.
  exists (mk [LAdd 1; LAdd 2; LAdd 3]), [1; 2; 3], 7, 3. eexists. eexists.
  split; [reach|]. split; [simpl; auto|]. split; [discriminate|]. split; [vm_compute; reflexivity|].
  split; [vm_compute; reflexivity|]. vm_compute. discriminate.
Qed.
Print Assumptions C03_list_insert_refuted.

(** An entry that does not occur: the list is changed all the same. *)
Theorem C03_list_insert_absent_refuted : exists l s x b l' r,
  reachable l s /\ ~ In b s /\ b <> 0 /\ x <> 0 /\ List_Insert l x b = Ok l' /\ List_Walk l' = Ok r /\ r <> s.
Proof.
  exists (mk [LAdd 1; LAdd 2]), [1; 2], 7, 3. eexists. eexists.
  split; [reach|]. split; [simpl; lia|]. split; [discriminate|]. split; [discriminate|]. split; [vm_compute; reflexivity|].
  split; [vm_compute; reflexivity|]. vm_compute. discriminate.
Qed.
Print Assumptions C03_list_insert_absent_refuted.

(** What holds: appending with b4 = NULL; and, on lists without gaps, the new
    entry goes before the first entry different from b4. *)
Theorem C03_list_insert_partial : forall l s x b, reachable l s -> x <> 0 -> List_Size_Raw l + 1 < 2 ^ 27 ->
  exists l', List_Insert l x b = Ok l' /\
   (b = 0 -> behaves l' (s ++ [x]) (2 ^ 27 - 1 - List_Size_Raw l')) /\
   (b <> 0 -> List_Size_Raw l = List_Num_Entries l -> behaves l' (insert_before_diff x b s) (2 ^ 27 - 1 - List_Size_Raw l')).
Proof. exact Insert_spec. Qed.
Print Assumptions C03_list_insert_partial.

Example C03_ex : reachable (mk [LAdd 1; LAdd 2]) [1; 2] /\
  (l <- List_Insert (mk [LAdd 1; LAdd 2]) 7 0 ;; List_Walk l) = Ok [1; 2; 7] /\
  (l <- List_Insert (mk [LAdd 1; LAdd 2]) 7 1 ;; List_Walk l) = Ok [1; 7; 2].
Proof. split; [reach|]. vm_compute. auto. Qed.

(** ** C04 *)

(** Walk steps with removals and additions in between: the entries returned are
    those of the abstract walk, in which removals take out passed or coming
    entries and additions join the coming ones. *)
Theorem C04_walk_exact : forall l s ops, reachable l s -> Forall wop_ok ops ->
  List_Size_Raw l + Z.of_nat (length ops) < 2 ^ 27 ->
  exists l' idx', wrun (l, 0) ops = Ok (l', idx', snd (vrun ([], s) ops)) /\
     List_Walk l' = Ok (fst (fst (vrun ([], s) ops)) ++ snd (fst (vrun ([], s) ops))).
Proof. exact walk_spec. Qed.
Print Assumptions C04_walk_exact.

(** When the walk has ended (the last step returned NULL), every entry still in
    the list was returned, in order, and the returned entries are, in order,
    among the starting entries followed by the added ones, each at most as
    often as it was put in. *)
Theorem C04_walk_complete : forall l s ops l' idx' out, reachable l s -> Forall wop_ok ops ->
  List_Size_Raw l + Z.of_nat (length ops) + 1 < 2 ^ 27 ->
  wrun (l, 0) (ops ++ [WNext]) = Ok (l', idx', out ++ [0]) ->
  exists s', List_Walk l' = Ok s' /\ subseq s' (filter (fun x => negb (x =? 0)) out) /\
    subseq (filter (fun x => negb (x =? 0)) out) (s ++ added ops).
Proof. exact walk_complete. Qed.
Print Assumptions C04_walk_complete.

Example C04_ex : let l := mk [LAdd 1; LAdd 2; LAdd 3; LAdd 4; LRem 2] in
  let ops := [WNext; WRem 3; WAdd 5; WRem 1; WNext; WRemi 0; WNext] in
  reachable l [1; 3; 4] /\ Forall wop_ok ops /\
  ('(_, out) <- wrun (l, 0) (ops ++ [WNext]) ;; Ok out) = Ok [1; 4; 5; 0].
Proof. split; [reach|]. split; [repeat constructor; discriminate|]. vm_compute. auto. Qed.

(** ** C05 *)

(** Any number of lists, any history with List_New, List_Cat and the calls of
    C01: no fault, all outputs right; histories in which List_Cat gets a
    source with gaps need a destination with gaps. *)
Theorem C05_list_memory_safe_partial : forall ops, sallowed true [] [] ops ->
  exists st', srun [] ops = Ok (st', snd (arun [] ops)).
Proof. exact srun_spec. Qed.
Print Assumptions C05_list_memory_safe_partial.

Example C05_ex : let ops := [SNew 0; SNew 1; SOp 0 (LAdd 1); SOp 1 (LAdd 2); SOp 1 (LAdd 3); SCat 0 1; SOp 0 (LRemi 1);
                             SOp 1 (LRem 2); SCat 0 1; SOp 0 LCompress; SOp 0 LWalk] in
  sallowed true [] [] ops /\ ('(_, o) <- srun [] ops ;; Ok (last o [])) = Ok [1; 3; 3].
Proof.
  split; [apply sallowedb_sound|]; vm_compute; reflexivity.
Qed.

(** Without that condition the claim is false: an allowed history of 12 calls
    after which List_Contains reads outside the allocated array. *)
Theorem C05_list_memory_safe_refuted : exists ops st outs l e, sallowed false [] [] ops /\ length ops = 12%nat /\
  srun [] ops = Ok (st, outs) /\ nth_error st 0 = Some l /\ e <> 0 /\ List_Contains l e = Undef.
Proof.
  exists [SNew 0; SNew 0; SOp 0 (LAdd 1); SOp 1 (LAdd 9); SOp 1 (LAdd 2); SOp 1 (LAdd 3); SOp 1 (LRem 9);
          SCat 0 1; SOp 0 (LRem 3); SOp 0 (LRemi 1); SOp 0 (LRemi 0); SOp 0 (LRem 2)].
  eexists. eexists. eexists. exists 4. split; [apply sallowedb_sound; vm_compute; reflexivity|].
  split; [reflexivity|]. split; [vm_compute; reflexivity|]. split; [reflexivity|]. split; [discriminate|].
  unfold List_Contains.
  match goal with |- context [List_Size_Raw ?l] => let n := eval vm_compute in (List_Size_Raw l) in replace (List_Size_Raw l) with n by (vm_compute; reflexivity) end.
  replace (Z.to_nat 134217731) with (S (S (S (S (S (S (S (S (Z.to_nat 134217723))))))))) by lia.
  cbn [find_eq]. reflexivity.
Qed.
Print Assumptions C05_list_memory_safe_refuted.

(** ** C06 *)

(** Present entry, key-sorted list with arbitrary gaps: terminates within
    List_Size_Raw iterations and removes exactly that entry.  Missing for the
    full statement: absent keys (false, see below). *)
Theorem C06_remsorted_partial : forall key l s e fuel, reachable l s ->
  StronglySorted (fun a b => key a < key b) s -> In e s -> List_Size_Raw l <= Z.of_nat fuel ->
  exists l', List_RemSorted key fuel l e = Ok (l', 1) /\ behaves l' (remove1 e s) (2 ^ 27 - 1 - List_Size_Raw l').
Proof. exact RemSorted_spec. Qed.
Print Assumptions C06_remsorted_partial.

Example C06_ex : let l := mk [LAdd 1; LAdd 2; LAdd 3; LAdd 4; LAdd 5; LAdd 6; LRem 1; LRem 4; LRem 6] in
  reachable l [2; 3; 5] /\ StronglySorted (fun a b => 10 * a < 10 * b) [2; 3; 5] /\
  ('(l', r) <- List_RemSorted (fun x => 10 * x) 6 l 3 ;; List_Walk l') = Ok [2; 5].
Proof. split; [reach|]. split; [repeat constructor; lia|]. vm_compute. auto. Qed.

(** Absent key: the loop may never end, or the variable fnd is read
    uninitialised. *)
Theorem C06_remsorted_absent_refuted :
  (exists l s e, reachable l s /\ StronglySorted (fun a b => a < b) s /\ ~ In e s /\
     forall fuel, List_RemSorted (fun x => x) fuel l e = OutOfFuel) /\
  (exists l s e, reachable l s /\ StronglySorted (fun a b => a < b) s /\ ~ In e s /\
     forall fuel, (2 <= fuel)%nat -> List_RemSorted (fun x => x) fuel l e = Undef).
Proof.
  split.
  - exists (mk [LAdd 1; LAdd 3; LAdd 4; LAdd 5; LRem 3; LRem 4]), [1; 5], 3.
    split; [reach|]. split; [repeat constructor; lia|]. split; [simpl; lia|].
    intro fuel.
    assert (B : forall n, bisect (fun x => x) n 6 [Some 1; Some 0; Some 0; Some 5; None; None; None] 0 3 1 5 3 = OutOfFuel).
    { induction n; [reflexivity|]. cbn -[bisect]. simpl. exact IHn. }
    assert (E : List_RemSorted (fun x => x) fuel (mk [LAdd 1; LAdd 3; LAdd 4; LAdd 5; LRem 3; LRem 4]) 3 =
      (r <- bisect (fun x => x) fuel 6 [Some 1; Some 0; Some 0; Some 5; None; None; None] 0 3 1 5 3 ;;
       match r with
       | Some i => l' <- blank (mk [LAdd 1; LAdd 3; LAdd 4; LAdd 5; LRem 3; LRem 4]) i ;; Ok (l', 1)
       | None => Undef end)) by reflexivity.
    rewrite E, B. reflexivity.
  - exists (mk [LAdd 1; LAdd 5]), [1; 5], 3.
    split; [reach|]. split; [repeat constructor; lia|]. split; [simpl; lia|].
    intros [|[|fuel]] Hf; [lia|lia|]. vm_compute. reflexivity.
Qed.
Print Assumptions C06_remsorted_absent_refuted.
