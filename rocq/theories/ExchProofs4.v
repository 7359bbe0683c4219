(** Proofs about the exchange of values: ghosts get the values of their masters. *)
From Coq Require Import ZArith List Lia Bool Arith ZifyBool ZifyNat Sorting.Sorted.
From Verif Require Import Base BaseProofs SortModel AttModel TopoModel ParModel ParProps CommModel CommProofs CommProofs2 ExchModel ExchProofs ExchProofs2 ExchProofs3.
Import ListNotations.
Open Scope Z_scope.

Lemma concat_block : forall wd (ws : list (list Z)) t, (forall w, In w ws -> length w = wd) -> (t < length ws)%nat -> firstn wd (skipn (t * wd) (concat ws)) = nth t ws [].
Proof.
  intros wd ws. induction ws as [|w ws IH]; intros t H Ht; cbn in Ht. lia. assert (Lw : length w = wd) by (apply H; cbn; auto). destruct t as [|t]; cbn [Nat.mul concat nth].
  - cbn [skipn]. rewrite firstn_app, Lw, Nat.sub_diag. cbn [firstn]. rewrite app_nil_r, <- Lw, firstn_all. auto.
  - rewrite skipn_app, Lw. rewrite (skipn_all2 w) by lia. cbn [app]. replace (wd + t * wd - wd)%nat with (t * wd)%nat by lia. apply IH. intros; apply H; cbn; auto. lia.
Qed.
Lemma concat_len : forall wd (ws : list (list Z)), (forall w, In w ws -> length w = wd) -> length (concat ws) = (length ws * wd)%nat.
Proof. intros wd ws. induction ws as [|w ws IH]; intros H; cbn; auto. rewrite app_length, IH by (intros; apply H; cbn; auto). rewrite (H w) by (cbn; auto). lia. Qed.

Lemma foldM_set : forall (f : (Z -> list Z) -> Z -> result (Z -> list Z)) (nw : Z -> option (list Z)) l v,
  (forall v g, In g l -> f v g = Ok (match nw g with None => v | Some w => zupd v g w end)) ->
  exists v', foldM f v l = Ok v' /\ (forall h, In h l -> v' h = match nw h with Some w => w | None => v h end) /\ (forall h, ~ In h l -> v' h = v h).
Proof.
  intros f nw. induction l as [|g l IH]; intros v H; cbn [foldM]. exists v. split; auto. split; auto. intros h []. rewrite H by (cbn; auto). cbn [bind].
  destruct (IH (match nw g with None => v | Some w => zupd v g w end)) as (v' & E & A & B). { intros. apply H. cbn. auto. } exists v'. split; auto.
  assert (U : forall h, match nw g with None => v | Some w => zupd v g w end h = if h =? g then match nw g with None => v h | Some w => w end else v h). { intros h. destruct (nw g) as [w|]; unfold zupd; destruct (Z.eqb_spec h g); auto. }
  split.
  - intros h Hh. destruct (in_dec Z.eq_dec h l) as [I|I]. rewrite A by auto. destruct (nw h) as [w|] eqn:Eh; auto. rewrite U. destruct (Z.eqb_spec h g) as [->|]; auto. rewrite Eh. auto.
    destruct Hh as [->|Hh]; [|contradiction]. rewrite B by auto. rewrite U, Z.eqb_refl. destruct (nw h); auto.
  - intros h Hh. rewrite B by (intro; apply Hh; cbn; auto). rewrite U. destruct (Z.eqb_spec h g) as [->|]; auto. exfalso. apply Hh. cbn. auto.
Qed.

(** ** Values *)
Definition attr_ok (a : attr) : Prop :=
  0 <= at_dim a <= 3 /\ match at_ty a with TINT | TDOUBLE => at_nc a = 1 | TVECTOR | TTENSOR => 1 <= at_nc a | TPOINTER => False end.
(** A value of the attribute: a vector has all its components, a number may not
    be set. *)
Definition value_ok (a : attr) (v : list Z) : Prop :=
  match at_ty a with TINT | TDOUBLE => (length v <= 1)%nat | _ => Z.of_nat (length v) = at_nc a end.
(** Values that do not reach the ghosts: zeros, and vectors of one component. *)
Definition lost_value (a : attr) (v : list Z) : bool :=
  match at_ty a with TINT => hd 0 v =? 0 | TDOUBLE => (hd 0 v =? 0) || (hd 0 v =? 2 ^ 63) | _ => (at_nc a =? 1) || forallb (fun c => (c =? 0) || (c =? 2 ^ 63)) v end.

Definition sentv (a : attr) (v : list Z) : list Z := match at_ty a with TINT | TDOUBLE => [hd 0 v] | _ => if at_nc a =? 1 then [0] else v end.
Lemma width_pos : forall a, attr_ok a -> 1 <= width a.
Proof. intros a [_ H]. unfold width. destruct (at_ty a); lia. Qed.
Lemma sent_ok : forall a v, attr_ok a -> value_ok a v -> sent a v = Ok (sentv a v) /\ Z.of_nat (length (sentv a v)) = width a.
Proof.
  intros a v [_ A] V. unfold sent, sentv, width, value_ok in *. destruct (at_ty a); try contradiction.
  - auto. - rewrite A. auto.
  - destruct (Z.eqb_spec (at_nc a) 1) as [E|E]; [split; cbn; auto|]. replace (at_nc a >? 1) with true by lia. replace (Z.of_nat (length v) <? at_nc a) with false by lia. rewrite firstn_all2 by lia. split; auto.
  - destruct (Z.eqb_spec (at_nc a) 1) as [E|E]; [split; cbn; auto|]. replace (at_nc a >? 1) with true by lia. replace (Z.of_nat (length v) <? at_nc a) with false by lia. rewrite firstn_all2 by lia. split; auto.
Qed.
Lemma sent_all_ok : forall a vs, attr_ok a -> (forall v, In v vs -> value_ok a v) -> sent_all a vs = Ok (concat (map (sentv a) vs)).
Proof.
  intros a vs A V. unfold sent_all. assert (E : mapM (sent a) vs = Ok (map (sentv a) vs)). { induction vs as [|v vs IH]; cbn [mapM map]; auto. destruct (sent_ok a v A (V v (or_introl eq_refl))) as [-> _]. cbn [bind]. rewrite IH by (intros; apply V; cbn; auto). auto. } rewrite E. auto.
Qed.
Lemma new_value_ok : forall a buf b0 vs t, attr_ok a -> (forall v, In v vs -> value_ok a v) -> holds buf (b0 * width a) (concat (map (sentv a) vs)) -> (t < length vs)%nat ->
  new_value a buf (b0 + Z.of_nat t) = Ok (if lost_value a (nth t vs []) then None else Some (nth t vs [])).
Proof.
  intros a buf b0 vs t A V H Ht. pose proof (width_pos a A) as W.
  assert (LW : forall w, In w (map (sentv a) vs) -> length w = Z.to_nat (width a)). { intros w Hw. apply in_map_iff in Hw. destruct Hw as (v & <- & Hv). destruct (sent_ok a v A (V v Hv)) as [_ L]. lia. }
  assert (LC : Z.of_nat (length (concat (map (sentv a) vs))) = Z.of_nat (length vs) * width a). { rewrite (concat_len (Z.to_nat (width a))) by auto. rewrite map_length. nia. }
  assert (BL : rd_block buf ((b0 + Z.of_nat t) * width a) (Z.to_nat (width a)) = Ok (sentv a (nth t vs []))).
  { replace ((b0 + Z.of_nat t) * width a) with (b0 * width a + Z.of_nat t * width a) by lia. rewrite (holds_block _ _ _ _ _ H) by nia. f_equal. replace (Z.to_nat (Z.of_nat t * width a)) with (t * Z.to_nat (width a))%nat by nia. rewrite concat_block by (auto; rewrite map_length; auto).
    rewrite (nth_indep _ [] (sentv a [])) by (rewrite map_length; auto). rewrite map_nth. auto. }
  assert (Vt : value_ok a (nth t vs [])) by (apply V, nth_In; auto). set (v := nth t vs []) in *. clearbody v.
  unfold new_value, lost_value, sentv, width, value_ok in *. destruct A as [_ A]. destruct (at_ty a); try contradiction.
  - change (Z.to_nat 1) with 1%nat in BL. rewrite Z.mul_1_r in BL. cbn [rd_block] in BL. destruct (rd buf (b0 + Z.of_nat t)); cbn [bind] in *; try discriminate. inversion BL; subst. destruct (Z.eqb_spec (hd 0 v) 0); auto. f_equal. f_equal. destruct v as [|x [|y v]]; cbn in *; auto; try lia.
  - rewrite A in *. change (Z.to_nat 1) with 1%nat in BL. rewrite Z.mul_1_r in BL. cbn [rd_block] in BL. destruct (rd buf (b0 + Z.of_nat t)); cbn [bind] in *; try discriminate. inversion BL; subst. change (1 =? 1) with true. cbv iota. cbn [bind]. unfold fzero. destruct ((hd 0 v =? 0) || (hd 0 v =? 2 ^ 63)) eqn:E; auto. f_equal. f_equal. destruct v as [|x [|y v]]; cbn in *; auto; try lia.
  - destruct (Z.eqb_spec (at_nc a) 1) as [E|E]; cbn [orb]. { rewrite E in BL. change (Z.to_nat 1) with 1%nat in BL. rewrite Z.mul_1_r in BL. cbn [rd_block] in BL. destruct (rd buf (b0 + Z.of_nat t)); cbn [bind] in *; try discriminate. auto. } replace (at_nc a >? 1) with true by lia. rewrite BL. cbn [bind]. unfold fzero. destruct (forallb _ v); auto.
  - destruct (Z.eqb_spec (at_nc a) 1) as [E|E]; cbn [orb]. { rewrite E in BL. change (Z.to_nat 1) with 1%nat in BL. rewrite Z.mul_1_r in BL. cbn [rd_block] in BL. destruct (rd buf (b0 + Z.of_nat t)); cbn [bind] in *; try discriminate. auto. } replace (at_nc a >? 1) with true by lia. rewrite BL. cbn [bind]. unfold fzero. destruct (forallb _ v); auto.
Qed.

(** ** The distributed entities of one kind *)
Definition owner_of (xs : Z -> xrank) (d p g o : Z) : Prop := In o (x_ov (xs (x_mas (xs p) g)) d) /\ x_gid (xs (x_mas (xs p) g)) o = x_gid (xs p) g.
Record shared (n d : Z) (xs : Z -> xrank) : Prop := {
  sh_sorted : forall q, on n q -> StronglySorted Z.lt (map (x_gid (xs q)) (x_ov (xs q) d));
  sh_range : forall q o, on n q -> In o (x_ov (xs q) d) -> 0 <= x_gid (xs q) o < 2 ^ 31;
  sh_ghost : forall p g, on n p -> In g (x_gh (xs p) d) -> on n (x_mas (xs p) g) /\ x_mas (xs p) g <> p /\ exists o, owner_of xs d p g o }.

Lemma sorted_inj : forall l i j, StronglySorted Z.lt l -> (i < length l)%nat -> (j < length l)%nat -> nth i l 0 = nth j l 0 -> i = j.
Proof.
  intros l i j H Hi Hj E. assert (N : NoDup l). { clear -H. induction H as [|x l H IH F]; constructor; auto. intro I. rewrite Forall_forall in F. specialize (F x I). lia. } apply (proj1 (NoDup_nth l 0) N); auto.
Qed.

Section Assign.
  Variables (n d : Z) (xs : Z -> xrank) (ms : Z -> pmesh) (flag : Z -> Z -> Z -> bool) (G : Z -> list Z).
  Hypothesis AF : adjf n ms (gh_of xs) (ov_of xs) flag G.
  Hypothesis Hd : 0 <= d <= 3.
  Hypothesis SH : shared n d xs.
  Definition gids_of (q : Z) : list Z := map (x_gid (xs q)) (x_ov (xs q) d).
  Variables (wd : Z) (vals : Z -> list Z).

  Lemma ghost_found : forall p b g g2, on n p -> bufs_ok d flag G wd gids_of vals p n b -> (forall t, (t < length (G p))%nat -> rd g2 (nth t (G p) 0) = Ok (Z.of_nat t)) -> In g (x_gh (xs p) d) ->
    exists t j, (t < length (G p))%nat /\ nth t (G p) 0 = x_mas (xs p) g /\ MESH_Num_Recv_From_Prtn (ms p) (x_mas (xs p) g) d = Ok (Z.of_nat (length (gids_of (x_mas (xs p) g)))) /\
      rd g2 (x_mas (xs p) g) = Ok (Z.of_nat t) /\ rdl (offs (size gids_of) (G p) 0) (Z.of_nat t) = Ok (base G gids_of p t) /\
      find_gid (x_gid (xs p) g) (fst b) (base G gids_of p t) (Z.of_nat (length (gids_of (x_mas (xs p) g)))) = Ok (Some (base G gids_of p t + Z.of_nat j)) /\
      (j < length (x_ov (xs (x_mas (xs p) g)) d))%nat /\ owner_of xs d p g (nth j (x_ov (xs (x_mas (xs p) g)) d) 0) /\ holds (snd b) (base G gids_of p t * wd) (vals (x_mas (xs p) g)).
  Proof.
    intros p b g g2 Hp HB H2 Hg. destruct (sh_ghost _ _ _ SH p g Hp Hg) as (Hq & Hne & o & Ho). set (q := x_mas (xs p) g) in *.
    assert (Hf : flag p q d = true). { apply (af_gh _ _ _ _ _ _ AF); auto. unfold gh_of, q. apply in_map. auto. }
    assert (IG : In q (G p)) by (apply (af_in _ _ _ _ _ _ AF); auto; split; auto; exists d; auto).
    destruct (In_nth _ _ 0 IG) as (t & Ht & Et). destruct HB as (_ & _ & HB). destruct (HB t Ht) as [HB1 HB2]. rewrite Et. unfold on in Hq. lia. rewrite Et. auto. rewrite Et in HB1, HB2.
    destruct (find_ok _ _ _ (x_gid (xs p) g) HB1) as (r & Er & Hr). { apply (sh_sorted _ _ _ SH). auto. } { intros x Hx. unfold gids_of in Hx. apply in_map_iff in Hx. destruct Hx as (o' & <- & Ho'). apply (sh_range _ _ _ SH); auto. } { destruct Ho as [Ho1 <-]. apply (sh_range _ _ _ SH); auto. }
    destruct r as [i|]. 2: { exfalso. apply Hr. destruct Ho as [Ho1 <-]. unfold gids_of, q. apply in_map. auto. }
    destruct Hr as [R1 R2]. assert (Lg : length (gids_of q) = length (x_ov (xs q) d)) by (unfold gids_of; apply map_length).
    exists t, (Z.to_nat (i - base G gids_of p t)). split; auto. split; auto. split. { rewrite (af_num _ _ _ _ _ _ AF) by auto. unfold ov_of. rewrite Lg. auto. }
    split. { rewrite <- Et. auto. } split. { rewrite rdl_ok by (rewrite offs_length; lia). rewrite Nat2Z.id, offs_nth by lia. auto. } split. { rewrite Er. f_equal. f_equal. lia. }
    split. lia. split; auto. split. apply nth_In. fold q. lia. fold q. rewrite <- R2. assert (NG : forall j, (j < length (x_ov (xs q) d))%nat -> nth j (gids_of q) 0 = x_gid (xs q) (nth j (x_ov (xs q) d) 0)). { intros j Hj. unfold gids_of. rewrite (nth_indep _ 0 (x_gid (xs q) 0)) by (rewrite map_length; lia). apply map_nth. } rewrite NG by lia. auto.
  Qed.
  Lemma owner_unique : forall p g o o', on n p -> In g (x_gh (xs p) d) -> owner_of xs d p g o -> owner_of xs d p g o' -> o = o'.
  Proof.
    intros p g o o' Hp Hg [A1 A2] [B1 B2]. destruct (sh_ghost _ _ _ SH p g Hp Hg) as (Hq & _). set (q := x_mas (xs p) g) in *. destruct (In_nth _ _ 0 A1) as (i & Hi & <-). destruct (In_nth _ _ 0 B1) as (j & Hj & <-). f_equal.
    apply (sorted_inj (gids_of q)). apply (sh_sorted _ _ _ SH); auto. unfold gids_of; rewrite map_length; auto. unfold gids_of; rewrite map_length; auto. unfold gids_of. rewrite !(nth_indep _ 0 (x_gid (xs q) 0)) by (rewrite map_length; auto). rewrite !map_nth. congruence.
  Qed.
End Assign.

(** Nothing changes but the values and the adjacency data. *)
Definition same_entities (x y : xrank) : Prop := x_gh y = x_gh x /\ x_ov y = x_ov x /\ x_gid y = x_gid x /\ x_mas y = x_mas x /\ x_bnd y = x_bnd x.

Lemma update1_ok : forall N a xs, (2 <= N)%nat -> let n := Z.of_nat N in adj_history N xs -> attr_ok a -> shared n (at_dim a) xs ->
  (forall p o, on n p -> In o (x_ov (xs p) (at_dim a)) -> value_ok a (x_val (xs p) o)) ->
  exists res, (forall lo, protocol n lo (lo + 4) (fun p => MESH_Update1Attribute n p a (xs p)) res) /\
    (forall p, on n p -> same_entities (xs p) (res p) /\
       (forall g o, In g (x_gh (xs p) (at_dim a)) -> owner_of xs (at_dim a) p g o -> x_val (res p) g = if lost_value a (x_val (xs (x_mas (xs p) g)) o) then x_val (xs p) g else x_val (xs (x_mas (xs p) g)) o) /\
       (forall h, ~ In h (x_gh (xs p) (at_dim a)) -> x_val (res p) h = x_val (xs p) h)) /\
    adj_history N res.
Proof.
  intros N a xs HN n AH A SH V. destruct (ensure_ok N xs HN AH) as (ms & flag & G & AF & AH' & PE). fold n in AF, PE. set (d := at_dim a) in *. assert (Hd : 0 <= d <= 3) by (destruct A; auto).
  set (gids := gids_of d xs). set (vals := fun q => concat (map (sentv a) (map (x_val (xs q)) (x_ov (xs q) d)))). pose proof (width_pos a A) as W.
  assert (VV : forall q v, on n q -> In v (map (x_val (xs q)) (x_ov (xs q) d)) -> value_ok a v). { intros q v Hq Hv. apply in_map_iff in Hv. destruct Hv as (o & <- & Ho). auto. }
  assert (Hov : forall q, on n q -> ov_of xs q d = Z.of_nat (length (gids q))) by (intros; unfold ov_of, gids, gids_of; rewrite map_length; auto).
  assert (Hval : forall q, on n q -> Z.of_nat (length (vals q)) = Z.of_nat (length (gids q)) * width a). { intros q Hq. unfold vals, gids, gids_of. rewrite (concat_len (Z.to_nat (width a))). rewrite !map_length. nia. intros w Hw. apply in_map_iff in Hw. destruct Hw as (v & <- & Hv). destruct (sent_ok a v A (VV q v Hq Hv)) as [_ L]. lia. }
  destruct (loop_protocol n d ms _ _ flag G AF Hd (vtype a) (width a) gids vals Hov Hval ltac:(lia)) as (bs & PL & HB).
  assert (G2 : forall p, exists g2, on n p -> g2l n (G p) = Ok g2 /\ forall t, (t < length (G p))%nat -> rd g2 (nth t (G p) 0) = Ok (Z.of_nat t)).
  { intros p. destruct (Z_lt_dec p n) as [L|L], (Z_le_dec 0 p) as [L'|L']. destruct (g2l_ok n (G p)) as (g2 & E1 & E2). apply (af_nd _ _ _ _ _ _ AF). unfold on; lia. intros q Hq. apply (af_in _ _ _ _ _ _ AF) in Hq. tauto. unfold on; lia. exists g2. auto. all: exists []; unfold on; intros; lia. }
  (* values of the ghosts *)
  assert (FV : forall p, on n p -> forall g2, (forall t, (t < length (G p))%nat -> rd g2 (nth t (G p) 0) = Ok (Z.of_nat t)) -> forall b, bufs_ok d flag G (width a) gids vals p n b -> forall x m, x_mas x = x_mas (xs p) -> x_gid x = x_gid (xs p) -> m = ms p ->
     exists nw, (forall v g, In g (x_gh (xs p) d) -> assign_ghost a x m g2 (offs (size gids) (G p) 0) b v g = Ok (match nw g with None => v | Some w => zupd v g w end)) /\
       forall g o, In g (x_gh (xs p) d) -> owner_of xs d p g o -> nw g = if lost_value a (x_val (xs (x_mas (xs p) g)) o) then None else Some (x_val (xs (x_mas (xs p) g)) o)).
  { intros p Hp g2 H2 b Hb x m Ex1 Ex2 ->. exists (fun g => match find (fun o => x_gid (xs (x_mas (xs p) g)) o =? x_gid (xs p) g) (x_ov (xs (x_mas (xs p) g)) d) with Some o => if lost_value a (x_val (xs (x_mas (xs p) g)) o) then None else Some (x_val (xs (x_mas (xs p) g)) o) | None => None end).
    assert (FO : forall g o, In g (x_gh (xs p) d) -> owner_of xs d p g o -> find (fun o => x_gid (xs (x_mas (xs p) g)) o =? x_gid (xs p) g) (x_ov (xs (x_mas (xs p) g)) d) = Some o).
    { intros g o Hg Ho. destruct (find _ _) as [o'|] eqn:F. apply find_some in F. destruct F as [F1 F2]. f_equal. apply (owner_unique n d xs SH p g); auto. split; auto. lia. exfalso. destruct Ho as [O1 O2]. apply (find_none _ _ F) in O1. lia. }
    split. 2: { intros g o Hg Ho. rewrite (FO g o Hg Ho). auto. }
    intros v g Hg. destruct (ghost_found n d xs ms flag G AF Hd SH (width a) vals p b g g2 Hp Hb H2 Hg) as (t & j & Ht & Et & E1 & E2 & E3 & E4 & Hj & Ho & Hh). fold gids in E1, E3, E4, Hh. unfold assign_ghost. rewrite Ex1, Ex2. fold d. rewrite E1. cbn [bind]. rewrite E2. cbn [bind]. rewrite E3. cbn [bind]. rewrite E4. cbn [bind].
    rewrite (FO g _ Hg Ho). destruct (sh_ghost _ _ _ SH p g Hp Hg) as (Hq & _). unfold vals in Hh. rewrite (new_value_ok a _ _ _ _ A (fun v Hv => VV _ v Hq Hv) Hh) by (rewrite map_length; auto). cbn [bind]. rewrite (nth_indep _ [] (x_val (xs (x_mas (xs p) g)) 0)) by (rewrite map_length; auto). rewrite map_nth. destruct (lost_value a _); auto. }
  (* the values themselves *)
  assert (RV : forall p, exists g2 v', on n p -> g2l n (G p) = Ok g2 /\ foldM (assign_ghost a (set_par (xs p) (ms p) 1) (ms p) g2 (offs (size gids) (G p) 0) (bs p)) (x_val (xs p)) (x_gh (xs p) d) = Ok v' /\
     (forall g o, In g (x_gh (xs p) d) -> owner_of xs d p g o -> v' g = if lost_value a (x_val (xs (x_mas (xs p) g)) o) then x_val (xs p) g else x_val (xs (x_mas (xs p) g)) o) /\ (forall h, ~ In h (x_gh (xs p) d) -> v' h = x_val (xs p) h)).
  { intros p. destruct (Z_lt_dec p n) as [L|L], (Z_le_dec 0 p) as [L'|L']. 2-4: exists [], (fun _ => []); unfold on; intros; lia. assert (Hp : on n p) by (unfold on; lia). destruct (G2 p) as (g2 & H2). destruct (H2 Hp) as [H3 H4].
    destruct (FV p Hp g2 H4 (bs p) (HB p Hp) (set_par (xs p) (ms p) 1) (ms p) eq_refl eq_refl eq_refl) as (nw & F1 & F2). destruct (foldM_set _ nw (x_gh (xs p) d) (x_val (xs p)) F1) as (v' & E & B1 & B2). exists g2, v'. intros _. split; auto. split; auto. split; auto. intros g o Hg Ho. rewrite B1 by auto. rewrite (F2 g o Hg Ho). destruct (lost_value a _); auto. }
  (* choice over finitely many ranks *)
  assert (CH : exists g2 v', forall p, on n p -> g2l n (G p) = Ok (g2 p) /\ foldM (assign_ghost a (set_par (xs p) (ms p) 1) (ms p) (g2 p) (offs (size gids) (G p) 0) (bs p)) (x_val (xs p)) (x_gh (xs p) d) = Ok (v' p) /\
     (forall g o, In g (x_gh (xs p) d) -> owner_of xs d p g o -> v' p g = if lost_value a (x_val (xs (x_mas (xs p) g)) o) then x_val (xs p) g else x_val (xs (x_mas (xs p) g)) o) /\ (forall h, ~ In h (x_gh (xs p) d) -> v' p h = x_val (xs p) h)).
  { exists (fun p => match g2l n (G p) with Ok g => g | _ => [] end), (fun p => match g2l n (G p) with Ok g2 => match foldM (assign_ghost a (set_par (xs p) (ms p) 1) (ms p) g2 (offs (size gids) (G p) 0) (bs p)) (x_val (xs p)) (x_gh (xs p) d) with Ok v => v | _ => x_val (xs p) end | _ => x_val (xs p) end).
    intros p Hp. destruct (RV p) as (g2 & v' & R). destruct (R Hp) as (R1 & R2 & R3 & R4). rewrite R1, R2. auto. }
  destruct CH as (g2 & v' & CH). exists (fun p => set_val (set_par (xs p) (ms p) 1) (v' p)). split; [|split].
  - intros lo. unfold MESH_Update1Attribute. replace (n =? 1) with false by (unfold n; lia). 
    assert (NP : at_ty a <> TPOINTER) by (destruct A as [_ A]; intro E; rewrite E in A; auto).
    apply protocol_ext with (qs := fun p => x <~ ensure_adj n p (xs p) ;;
        (if at_dim a =? MALLTYPE then Ret x
        else if (at_dim a <? 0) || (at_dim a >? 3) then Fail
        else
          let ov := x_ov x (at_dim a) in
          vals <! sent_all a (map (x_val x) ov) ;;
          '(m, rp) <! MESH_GhostPrtns (x_p x) ;;
          pos <! positions m (at_dim a) rp 0 ;;
          g2 <! g2l n rp ;;
          b <~ pfold (fun i b => exch_with m p (at_dim a) (vtype a) (width a) (Z.of_nat (length ov)) (map (x_gid x) ov) vals rp pos i b)
                 (ranks n) (malloc (last pos 0), malloc (last pos 0 * width a)) ;;
          v <! foldM (assign_ghost a x m g2 pos b) (x_val x) (x_gh x (at_dim a)) ;;
          Ret (set_val (set_par x m (x_cur x)) v))).
    { intros p Hp. destruct (at_ty a); auto. congruence. }
    eapply protocol_bind; [|apply PE|]. lia. cbv beta. fold d. replace (d =? MALLTYPE) with false by (unfold MALLTYPE; lia). replace ((d <? 0) || (d >? 3)) with false by lia. cbn [set_par x_ov x_val x_p x_gid x_gh x_cur].
    apply protocol_lift with (v := vals). { intros p Hp. apply sent_all_ok; auto. intros v Hv. apply (VV p); auto. }
    apply protocol_lift with (v := fun p => (ms p, G p)). { intros p Hp. apply (af_G _ _ _ _ _ _ AF). auto. }
    apply protocol_lift with (v := fun p => offs (size gids) (G p) 0). { intros p Hp. apply positions_ok. intros q Hq. rewrite (af_num _ _ _ _ _ _ AF) by auto. rewrite Hov. auto. apply (af_in _ _ _ _ _ _ AF p) in Hq; tauto. }
    apply protocol_lift with (v := g2). { intros p Hp. apply CH. auto. }
    replace (lo + 4) with (lo + 3 + 1) by lia. 
    eapply (protocol_bind _ _ n (lo + 3) (lo + 3 + 1) (lo + 3 + 1)); [lia| |].
    { eapply protocol_ext; [|exact (PL (lo + 3))]. intros p Hp. cbv beta. unfold size, gids, gids_of. rewrite map_length. reflexivity. }
    cbv beta. apply protocol_lift with (v := v'). { intros p Hp. apply CH. auto. } apply protocol_ret.
  - intros p Hp. cbn [set_val set_par x_val]. split. repeat split. destruct (CH p Hp) as (_ & _ & C1 & C2). split; auto.
  - exact AH'.
Qed.
