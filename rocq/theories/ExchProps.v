(** Properties C31 and C32: attribute values and coordinates of ghosts, and the
    pairwise exchange behind them.

    [never_stuck_with n ps res]: there is a bound on the length of all executions
    of the [n] programs; after every execution, with sends buffered or not, either
    all ranks have returned [res] and no message is left, or a further step is
    possible even if no send is buffered. *)
From Coq Require Import ZArith List Lia Bool Arith ZifyBool ZifyNat Sorting.Sorted.
From Verif Require Import Base BaseProofs SortModel AttModel TopoModel ParModel ParProps CommModel CommProofs CommProofs2 ExchModel ExchProofs ExchProofs2 ExchProofs3 ExchProofs4 ExchProofs5 ExchProofs6 ExchProofs7.
Import ListNotations.
Open Scope Z_scope.

Lemma exec_snoc : forall R n k (w1 w2 w3 : world R), exec n k w1 w2 -> step n w2 w3 -> exec n (S k) w1 w3.
Proof. intros R n k w1 w2 w3 H. induction H; intros X. econstructor; [exact X|constructor]. econstructor; eauto. Qed.
(** The two readings of the definition: there is a complete execution, and it is
    the end of every execution that cannot go on. *)
Theorem never_stuck_ends : forall R n (ps : Z -> prog R) res, never_stuck_with n ps res -> exists k w, exec n k (init ps) w /\ finished n w res.
Proof.
  intros R n ps res (N & H). assert (X : forall j k w, exec n k (init ps) w -> (N - k <= j)%nat -> exists k w, exec n k (init ps) w /\ finished n w res).
  { induction j as [|j IH]; intros k w E L; destruct (H k w E) as [B [F|(w' & S')]]; eauto; assert (E' := exec_snoc _ _ _ _ _ _ E (s_sure _ _ _ S')); destruct (H _ _ E') as [B' _]. lia. apply (IH (S k) w' E'). lia. }
  apply (X N 0%nat (init ps)). constructor. lia.
Qed.

(** ** C32: no deadlock *)

(** The exchange with arbitrary global IDs and values. *)
Theorem C32_exchange : forall N xs d ty wd gids vals, (2 <= N)%nat -> let n := Z.of_nat N in adj_history N xs -> 0 <= d <= 3 -> 0 <= wd ->
  (forall q, on n q -> length (gids q) = length (x_ov (xs q) d)) -> (forall q, on n q -> Z.of_nat (length (vals q)) = Z.of_nat (length (gids q)) * wd) ->
  exists res, never_stuck_with n (fun p =>
    x <~ ensure_adj n p (xs p) ;;
    '(m, rp) <! MESH_GhostPrtns (x_p x) ;;
    pos <! positions m d rp 0 ;;
    pfold (fun i b => exch_with m p d ty wd (Z.of_nat (length (gids p))) (gids p) (vals p) rp pos i b) (ranks n) (malloc (last pos 0), malloc (last pos 0 * wd))) res.
Proof.
  intros N xs d ty wd gids vals HN n AH Hd Hwd HG HV. destruct (ensure_ok N xs HN AH) as (ms & flag & G & AF & AH' & PE). fold n in AF, PE.
  assert (Hov : forall q, on n q -> ov_of xs q d = Z.of_nat (length (gids q))) by (intros; unfold ov_of; rewrite HG; auto).
  destruct (loop_protocol n d ms _ _ flag G AF Hd ty wd gids vals Hov HV Hwd) as (bs & PL & _). exists bs. apply (protocol_runs _ n 0 (0 + 3 + 1)). unfold n; lia.
  eapply (protocol_bind _ _ n 0 (0 + 3)); [lia|apply PE|]. cbv beta. cbn [set_par x_p].
  apply protocol_lift with (v := fun p => (ms p, G p)). { intros p Hp. apply (af_G _ _ _ _ _ _ AF). auto. }
  apply protocol_lift with (v := fun p => offs (size gids) (G p) 0). { intros p Hp. apply positions_ok. intros q Hq. rewrite (af_num _ _ _ _ _ _ AF) by auto. rewrite Hov. auto. apply (af_in _ _ _ _ _ _ AF p) in Hq; tauto. }
  apply PL.
Qed.
Print Assumptions C32_exchange.

Theorem C32_update_attribute : forall N a xs, (2 <= N)%nat -> let n := Z.of_nat N in adj_history N xs -> attr_ok a -> shared n (at_dim a) xs ->
  (forall p o, on n p -> In o (x_ov (xs p) (at_dim a)) -> value_ok a (x_val (xs p) o)) ->
  exists res, never_stuck_with n (fun p => MESH_Update1Attribute n p a (xs p)) res /\ adj_history N res.
Proof.
  intros N a xs HN n AH A SH V. destruct (update1_ok N a xs HN AH A SH V) as (res & P & _ & H). exists res. split; auto. apply (protocol_runs _ n 0 4). unfold n; lia. apply P.
Qed.
Print Assumptions C32_update_attribute.

Theorem C32_update_coordinates : forall N xs, (2 <= N)%nat -> let n := Z.of_nat N in adj_history N xs -> shared n 0 xs ->
  (forall p o, on n p -> In o (x_ov (xs p) 0) -> length (x_val (xs p) o) = 3%nat) ->
  exists res, never_stuck_with n (fun p => MESH_UpdateVertexCoords n p (xs p)) res /\ adj_history N res.
Proof.
  intros N xs HN n AH SH V. destruct (coords_ok N xs HN AH SH V) as (res & P & _ & H). exists res. split; auto. apply (protocol_runs _ n 0 5). unfold n; lia. apply P.
Qed.
Print Assumptions C32_update_coordinates.

Theorem C32_exchange_boundary : forall N nregs a xs, (2 <= N)%nat -> let n := Z.of_nat N in let d := at_dim a in adj_history N xs -> attr_ok a -> bshared n d xs ->
  (d = 1 /\ (forall p, on n p -> nregs p = 0) \/ d = 2) ->
  (forall p o, on n p -> In o (x_ov (xs p) d) -> value_ok a (x_val (xs p) o)) -> (forall p g, on n p -> In g (x_gh (xs p) d) -> x_bnd (xs p) g = true -> value_ok a (x_val (xs p) g)) ->
  exists res, never_stuck_with n (fun p => MESH_XchngEdgeFaceAttrib n p (nregs p) a (xs p)) res /\ adj_history N res.
Proof.
  intros N nregs a xs HN n d AH A SH D V VG. destruct (xchng_ok N nregs a xs HN AH A SH D V VG) as (res & P & _ & H). exists res. split; auto. apply (protocol_runs _ n 0 9). unfold n; lia. apply P.
Qed.
Print Assumptions C32_exchange_boundary.

(** ** C31: values of the ghosts *)

(** As C31 asks, except for values that are lost: zeros and vectors of one
    component stay as they were on the ghost. *)
Theorem C31_update_attribute_partial : forall N a xs, (2 <= N)%nat -> let n := Z.of_nat N in let d := at_dim a in adj_history N xs -> attr_ok a -> shared n d xs ->
  (forall p o, on n p -> In o (x_ov (xs p) d) -> value_ok a (x_val (xs p) o)) ->
  exists res, never_stuck_with n (fun p => MESH_Update1Attribute n p a (xs p)) res /\
    forall p, on n p -> same_entities (xs p) (res p) /\
      (forall g o, In g (x_gh (xs p) d) -> owner_of xs d p g o -> lost_value a (x_val (xs (x_mas (xs p) g)) o) = false -> x_val (res p) g = x_val (xs (x_mas (xs p) g)) o) /\
      (forall g o, In g (x_gh (xs p) d) -> owner_of xs d p g o -> lost_value a (x_val (xs (x_mas (xs p) g)) o) = true -> x_val (res p) g = x_val (xs p) g) /\
      (forall h, ~ In h (x_gh (xs p) d) -> x_val (res p) h = x_val (xs p) h).
Proof.
  intros N a xs HN n d AH A SH V. destruct (update1_ok N a xs HN AH A SH V) as (res & P & R & _). exists res. split. apply (protocol_runs _ n 0 4). unfold n; lia. apply P.
  intros p Hp. destruct (R p Hp) as (R1 & R2 & R3). split; auto. split; [|split; auto]; intros g o Hg Ho L; rewrite (R2 g o Hg Ho), L; auto.
Qed.
Print Assumptions C31_update_attribute_partial.

Theorem C31_update_coordinates : forall N xs, (2 <= N)%nat -> let n := Z.of_nat N in adj_history N xs -> shared n 0 xs ->
  (forall p o, on n p -> In o (x_ov (xs p) 0) -> length (x_val (xs p) o) = 3%nat) ->
  exists res, never_stuck_with n (fun p => MESH_UpdateVertexCoords n p (xs p)) res /\
    forall p, on n p -> same_entities (xs p) (res p) /\
      (forall g o, In g (x_gh (xs p) 0) -> owner_of xs 0 p g o -> x_val (res p) g = x_val (xs (x_mas (xs p) g)) o) /\
      (forall h, ~ In h (x_gh (xs p) 0) -> x_val (res p) h = x_val (xs p) h).
Proof.
  intros N xs HN n AH SH V. destruct (coords_ok N xs HN AH SH V) as (res & P & R & _). exists res. split; auto. apply (protocol_runs _ n 0 5). unfold n; lia. apply P.
Qed.
Print Assumptions C31_update_coordinates.

(** The exchange on the boundary: the ghosts get the value of the master, a master
    on the boundary that of the ghost on the boundary of the lowest rank. *)
Theorem C31_exchange_boundary : forall N nregs a xs, (2 <= N)%nat -> let n := Z.of_nat N in let d := at_dim a in adj_history N xs -> attr_ok a -> bshared n d xs ->
  (d = 1 /\ (forall p, on n p -> nregs p = 0) \/ d = 2) ->
  (forall p o, on n p -> In o (x_ov (xs p) d) -> value_ok a (x_val (xs p) o)) -> (forall p g, on n p -> In g (x_gh (xs p) d) -> x_bnd (xs p) g = true -> value_ok a (x_val (xs p) g)) ->
  exists res, never_stuck_with n (fun p => MESH_XchngEdgeFaceAttrib n p (nregs p) a (xs p)) res /\
    forall p, on n p -> same_entities (xs p) (res p) /\
       (forall g o, In g (x_gh (xs p) d) -> owner_of xs d p g o -> x_val (res p) g = if lost_value a (x_val (xs (x_mas (xs p) g)) o) then x_val (xs p) g else x_val (xs (x_mas (xs p) g)) o) /\
       (forall o j g, In o (x_ov (xs p) d) -> x_bnd (xs p) o = true -> on n j -> bcopy xs d p o j g -> (forall i h, on n i -> i < j -> ~ bcopy xs d p o i h) -> x_val (res p) o = if lost_value a (x_val (xs j) g) then x_val (xs p) o else x_val (xs j) g) /\
       (forall o, In o (x_ov (xs p) d) -> x_bnd (xs p) o = false \/ (forall j g, on n j -> ~ bcopy xs d p o j g) -> x_val (res p) o = x_val (xs p) o) /\
       (forall h, ~ In h (x_gh (xs p) d) -> ~ In h (x_ov (xs p) d) -> x_val (res p) h = x_val (xs p) h).
Proof.
  intros N nregs a xs HN n d AH A SH D V VG. destruct (xchng_ok N nregs a xs HN AH A SH D V VG) as (res & P & R & _). exists res. split; auto. apply (protocol_runs _ n 0 9). unfold n; lia. apply P.
Qed.
Print Assumptions C31_exchange_boundary.

(** ** Examples: three ranks *)

(** Rank 0 owns the faces 1, 2 and 3, rank 1 the face 4; ranks 1 and 2 have ghosts
    of them, rank 0 a ghost of face 4. *)
Definition ex_gids (p h : Z) : Z :=
  match p with 0 => h | 1 => if h =? 1 then 4 else h - 1 | _ => h + 2 end.
Definition ex_mas (p h : Z) : Z := match p with 0 => if h =? 4 then 1 else 0 | 1 => if h =? 1 then 1 else 0 | _ => if h =? 1 then 0 else 1 end.
Definition ex_x (val : Z -> Z -> list Z) (p : Z) : xrank :=
  mkX (nth (Z.to_nat p) (fresh 3) pmesh_new) 0
      (fun k => if k =? 2 then match p with 0 => [4] | 1 => [2; 3] | 2 => [1; 2] | _ => [] end else [])
      (fun k => if k =? 2 then match p with 0 => [1; 2; 3] | 1 => [1] | _ => [] end else [])
      (ex_gids p) (ex_mas p) (fun h => match p with 0 => true | _ => true end) (val p).

Lemma ex_ranks : forall p, on 3 p -> p = 0 \/ p = 1 \/ p = 2.
Proof. unfold on. intros. lia. Qed.
Lemma ex_history : forall val, adj_history 3 (ex_x val).
Proof.
  intros val. exists [], (fresh 3). split. reflexivity. split.
  { constructor; [|constructor]. intros p k q Hp Hq. cbn [fst] in Hq. unfold zfun, gh_of, ex_x in Hq. cbn [x_mas x_gh] in Hq. destruct (k =? 2); [|contradiction]. change (Z.of_nat 3) with 3. destruct p as [|[|[|p]]]; [| | |lia]; vm_compute in Hq; intuition (subst; lia). }
  split. reflexivity. split. left. reflexivity. intros H. specialize (H 0 ltac:(unfold on; lia)). discriminate.
Qed.
Lemma ex_shared : forall val, shared 3 2 (ex_x val).
Proof.
  intros val. constructor.
  - intros q Hq. destruct (ex_ranks q Hq) as [->|[->| ->]]; cbn; repeat constructor; auto.
  - intros q o Hq Ho. destruct (ex_ranks q Hq) as [->|[->| ->]]; cbn in Ho; cbn; intuition (subst; cbn; lia).
  - intros p g Hp Hg. destruct (ex_ranks p Hp) as [->|[->| ->]]; cbn in Hg.
    + destruct Hg as [<-|[]]. cbn. split. unfold on; lia. split. lia. exists 1. split; cbn; auto.
    + destruct Hg as [<-|[<-|[]]]; cbn; (split; [unfold on; lia|split; [lia|]]). exists 1. split; cbn; auto. exists 2. split; cbn; auto.
    + destruct Hg as [<-|[<-|[]]]; cbn; (split; [unfold on; lia|split; [lia|]]). exists 3. split; cbn; auto. exists 1. split; cbn; auto.
Qed.

Example C31_update_example : exists res, never_stuck_with 3 (fun p => MESH_Update1Attribute 3 p (mkAt TINT 1 2) (ex_x (fun p h => [100 * p + h]) p)) res /\
  x_val (res 0) 4 = [101] /\ x_val (res 1) 2 = [1] /\ x_val (res 1) 3 = [2] /\ x_val (res 2) 1 = [3] /\ x_val (res 2) 2 = [101] /\ x_val (res 0) 1 = [1].
Proof.
  destruct (C31_update_attribute_partial 3 (mkAt TINT 1 2) (ex_x (fun p h => [100 * p + h])) ltac:(lia) (ex_history _)) as (res & P & R).
  - split; cbn; lia.
  - apply ex_shared.
  - intros p o Hp Ho. cbn. auto.
  - exists res. split. exact P. destruct (R 0 ltac:(unfold on; lia)) as (_ & A0 & _ & B0). destruct (R 1 ltac:(unfold on; lia)) as (_ & A1 & _ & B1). destruct (R 2 ltac:(unfold on; lia)) as (_ & A2 & _ & B2).
    split; [|split; [|split; [|split; [|split]]]].
    + apply (A0 4 1); [cbn; auto|split; cbn; auto|reflexivity].
    + apply (A1 2 1); [cbn; auto|split; cbn; auto|reflexivity].
    + apply (A1 3 2); [cbn; auto|split; cbn; auto|reflexivity].
    + apply (A2 1 3); [cbn; auto|split; cbn; auto|reflexivity].
    + apply (A2 2 1); [cbn; auto|split; cbn; auto|reflexivity].
    + apply (B0 1). cbn. lia.
Qed.

(** A zero is not sent on: the full statement of C31 fails. *)
Theorem C31_zero_value_refuted : exists a xs res, adj_history 3 xs /\ attr_ok a /\ shared 3 (at_dim a) xs /\ (forall p o, value_ok a (x_val (xs p) o)) /\
  never_stuck_with 3 (fun p => MESH_Update1Attribute 3 p a (xs p)) res /\
  exists p g o, on 3 p /\ In g (x_gh (xs p) (at_dim a)) /\ owner_of xs (at_dim a) p g o /\ x_val (res p) g <> x_val (xs (x_mas (xs p) g)) o.
Proof.
  set (xs := ex_x (fun p h => [if p =? 0 then 0 else 5])). exists (mkAt TINT 1 2), xs.
  destruct (C31_update_attribute_partial 3 (mkAt TINT 1 2) xs ltac:(lia) (ex_history _)) as (res & P & R).
  - split; cbn; lia.
  - apply ex_shared.
  - intros p o Hp Ho. cbn. auto.
  - exists res. split. apply ex_history. split. split; cbn; lia. split. apply ex_shared. split. intros; cbn; auto. split. exact P. exists 1, 2, 1. split. unfold on; lia. split. cbn; auto. split. split; cbn; auto.
    destruct (R 1 ltac:(unfold on; lia)) as (_ & _ & B & _). rewrite (B 2 1); [cbn; discriminate|cbn; auto|split; cbn; auto|reflexivity].
Qed.
Print Assumptions C31_zero_value_refuted.

(** Nor is any vector of one component. *)
Theorem C31_one_component_refuted : exists a xs res, at_ty a = TVECTOR /\ adj_history 3 xs /\ attr_ok a /\ shared 3 (at_dim a) xs /\ (forall p o, value_ok a (x_val (xs p) o)) /\
  never_stuck_with 3 (fun p => MESH_Update1Attribute 3 p a (xs p)) res /\
  exists p g o, on 3 p /\ In g (x_gh (xs p) (at_dim a)) /\ owner_of xs (at_dim a) p g o /\ x_val (xs (x_mas (xs p) g)) o <> [0] /\ x_val (res p) g <> x_val (xs (x_mas (xs p) g)) o.
Proof.
  set (xs := ex_x (fun p h => [p + 1])). exists (mkAt TVECTOR 1 2), xs.
  destruct (C31_update_attribute_partial 3 (mkAt TVECTOR 1 2) xs ltac:(lia) (ex_history _)) as (res & P & R).
  - split; cbn; lia.
  - apply ex_shared.
  - intros p o Hp Ho. cbn. auto.
  - exists res. split. reflexivity. split. apply ex_history. split. split; cbn; lia. split. apply ex_shared. split. intros; cbn; auto. split. exact P. exists 1, 2, 1. split. unfold on; lia. split. cbn; auto. split. split; cbn; auto. split. cbn. discriminate.
    destruct (R 1 ltac:(unfold on; lia)) as (_ & _ & B & _). rewrite (B 2 1); [cbn; discriminate|cbn; auto|split; cbn; auto|reflexivity].
Qed.
Print Assumptions C31_one_component_refuted.

Example C31_boundary_example : exists res, never_stuck_with 3 (fun p => MESH_XchngEdgeFaceAttrib 3 p 8 (mkAt TDOUBLE 1 2) (ex_x (fun p h => [100 * p + h]) p)) res /\
  x_val (res 0) 1 = [102] /\ x_val (res 0) 3 = [201] /\ x_val (res 1) 2 = [1] /\ x_val (res 1) 1 = [4] /\ x_val (res 2) 2 = [101].
Proof.
  destruct (C31_exchange_boundary 3 (fun _ => 8) (mkAt TDOUBLE 1 2) (ex_x (fun p h => [100 * p + h])) ltac:(lia) (ex_history _)) as (res & P & R).
  - split; cbn; lia.
  - constructor. apply ex_shared. intros p Hp. destruct (ex_ranks p Hp) as [->|[->| ->]]; cbn; repeat constructor; auto. intros p h Hp Hh. destruct (ex_ranks p Hp) as [->|[->| ->]]; cbn in *; lia.
  - auto.
  - intros p o Hp Ho. cbn. auto.
  - intros p g Hp Hg _. cbn. auto.
  - exists res. split. exact P. destruct (R 0 ltac:(unfold on; lia)) as (_ & A0 & B0 & _). destruct (R 1 ltac:(unfold on; lia)) as (_ & A1 & B1 & _). destruct (R 2 ltac:(unfold on; lia)) as (_ & A2 & B2 & _).
    assert (E : forall p h, x_val (ex_x (fun p h => [100 * p + h]) p) h = [100 * p + h]) by reflexivity.
    split; [|split; [|split; [|split]]].
    + apply (B0 1 1 2); [cbn; auto|reflexivity|unfold on; lia|repeat split; cbn; auto|]. intros i h Hi L (X & X1 & _). assert (i = 0) as -> by (unfold on in Hi; lia). cbn in X. destruct X as [<-|[]]. discriminate.
    + apply (B0 3 2 1); [cbn; auto|reflexivity|unfold on; lia|repeat split; cbn; auto|]. intros i h Hi L (X & X1 & X2 & X3). assert (i = 0 \/ i = 1) as [-> | ->] by (unfold on in Hi; lia); cbn in X, X1, X3. destruct X as [<-|[]]. discriminate. destruct X as [<-|[<-|[]]]; cbn in X3; lia.
    + apply (A1 2 1); [cbn; auto|split; cbn; auto].
    + apply (B1 1 0 4); [cbn; auto|reflexivity|unfold on; lia|repeat split; cbn; auto|]. intros i h Hi L _. unfold on in Hi. lia.
    + apply (A2 2 1); [cbn; auto|split; cbn; auto].
Qed.

(** The same ranks with vertices, for the coordinates. *)
Definition ex_v (p : Z) : xrank :=
  let x := ex_x (fun p h => [p; h; 7]) p in mkX (x_p x) 0 (fun k => if k =? 0 then x_gh x 2 else []) (fun k => if k =? 0 then x_ov x 2 else []) (x_gid x) (x_mas x) (x_bnd x) (x_val x).
Example C31_coordinates_example : exists res, never_stuck_with 3 (fun p => MESH_UpdateVertexCoords 3 p (ex_v p)) res /\
  x_val (res 0) 4 = [1; 1; 7] /\ x_val (res 2) 1 = [0; 3; 7] /\ x_val (res 0) 2 = [0; 2; 7].
Proof.
  destruct (C31_update_coordinates 3 ex_v ltac:(lia)) as (res & P & R).
  - exists [], (fresh 3). split. reflexivity. split.
    { constructor; [|constructor]. intros p k q Hp Hq. cbn [fst] in Hq. unfold zfun, gh_of, ex_v, ex_x in Hq. cbn [x_mas x_gh] in Hq. destruct (k =? 0); [|contradiction]. change (Z.of_nat 3) with 3. destruct p as [|[|[|p]]]; [| | |lia]; vm_compute in Hq; intuition (subst; lia). }
    split. reflexivity. split. left. reflexivity. intros H. specialize (H 0 ltac:(unfold on; lia)). discriminate.
  - destruct (ex_shared (fun p h => [p; h; 7])) as [X1 X2 X3]. constructor. exact X1. exact X2. exact X3.
  - reflexivity.
  - exists res. split. exact P. destruct (R 0 ltac:(unfold on; lia)) as (_ & A0 & B0). destruct (R 2 ltac:(unfold on; lia)) as (_ & A2 & _). split; [|split].
    + apply (A0 4 1); [cbn; auto|split; cbn; auto].
    + apply (A2 1 3); [cbn; auto|split; cbn; auto].
    + apply (B0 2). cbn. lia.
Qed.

(** Sends that are not matched in this order do get stuck: two ranks that both
    send first have no guaranteed step. *)
Example C32_both_send_first_stuck : forall w', ~ sure 2 (init (fun p => Snd (1 - p) 0 (TInt, [p]) (Rcv (1 - p) 0 TInt 1 (fun d => Ret d)))) w'.
Proof.
  intros w' H. inversion H as [w p q tag ty max k d l1 l2 Hp Hq E|w p q tag ty max kp kq d Hp Hq Hne E1 E2|w xs ks E]; subst; cbn in *; try discriminate. specialize (E 0). unfold on in E. specialize (E ltac:(lia)). discriminate.
Qed.
