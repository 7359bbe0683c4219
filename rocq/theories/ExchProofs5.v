(** Proofs about the exchange of values: vertex coordinates. *)
From Coq Require Import ZArith List Lia Bool Arith ZifyBool ZifyNat Sorting.Sorted.
From Verif Require Import Base BaseProofs SortModel AttModel TopoModel ParModel ParProps CommModel CommProofs CommProofs2 ExchModel ExchProofs ExchProofs2 ExchProofs3 ExchProofs4.
Import ListNotations.
Open Scope Z_scope.

Lemma coords3_all : forall l, (forall v : list Z, In v l -> length v = 3%nat) -> mapM coords3 l = Ok l.
Proof.
  induction l as [|v l IH]; intros H; cbn [mapM]; auto. unfold coords3 at 1. rewrite (H v) by (cbn; auto). change (Z.of_nat 3 =? 3) with true. cbv iota. cbn [bind]. rewrite IH by (intros; apply H; cbn; auto). auto.
Qed.

Lemma coords_ok : forall N xs, (2 <= N)%nat -> let n := Z.of_nat N in adj_history N xs -> shared n 0 xs ->
  (forall p o, on n p -> In o (x_ov (xs p) 0) -> length (x_val (xs p) o) = 3%nat) ->
  exists res, (forall lo, protocol n lo (lo + 5) (fun p => MESH_UpdateVertexCoords n p (xs p)) res) /\
    (forall p, on n p -> same_entities (xs p) (res p) /\
       (forall g o, In g (x_gh (xs p) 0) -> owner_of xs 0 p g o -> x_val (res p) g = x_val (xs (x_mas (xs p) g)) o) /\
       (forall h, ~ In h (x_gh (xs p) 0) -> x_val (res p) h = x_val (xs p) h)) /\
    adj_history N res.
Proof.
  intros N xs HN n AH SH V. destruct (ensure_ok N xs HN AH) as (ms & flag & G & AF & AH' & PE). fold n in AF, PE. assert (Hd : 0 <= 0 <= 3) by lia.
  set (gids := gids_of 0 xs). set (vals := fun q => concat (map (x_val (xs q)) (x_ov (xs q) 0))).
  assert (VV : forall q v, on n q -> In v (map (x_val (xs q)) (x_ov (xs q) 0)) -> length v = 3%nat). { intros q v Hq Hv. apply in_map_iff in Hv. destruct Hv as (o & <- & Ho). auto. }
  assert (Hov : forall q, on n q -> ov_of xs q 0 = Z.of_nat (length (gids q))) by (intros; unfold ov_of, gids, gids_of; rewrite map_length; auto).
  assert (Hval : forall q, on n q -> Z.of_nat (length (vals q)) = Z.of_nat (length (gids q)) * 3). { intros q Hq. unfold vals, gids, gids_of. rewrite (concat_len 3) by (intros; apply (VV q); auto). rewrite !map_length. lia. }
  destruct (loop_protocol n 0 ms _ _ flag G AF Hd TDbl 3 gids vals Hov Hval ltac:(lia)) as (bs & PL & HB).
  set (own := fun p g => match find (fun o => x_gid (xs (x_mas (xs p) g)) o =? x_gid (xs p) g) (x_ov (xs (x_mas (xs p) g)) 0) with Some o => x_val (xs (x_mas (xs p) g)) o | None => [] end).
  assert (FO : forall p g o, on n p -> In g (x_gh (xs p) 0) -> owner_of xs 0 p g o -> own p g = x_val (xs (x_mas (xs p) g)) o).
  { intros p g o Hp Hg Ho. unfold own. destruct (find _ _) as [o'|] eqn:F. apply find_some in F. destruct F as [F1 F2]. f_equal. apply (owner_unique n 0 xs SH p g); auto. split; auto. lia. exfalso. destruct Ho as [O1 O2]. apply (find_none _ _ F) in O1. lia. }
  assert (RV : forall p, on n p -> exists g2 v', g2l n (G p) = Ok g2 /\ foldM (assign_coords (set_par (xs p) (ms p) 1) (ms p) g2 (offs (size gids) (G p) 0) (bs p)) (x_val (xs p)) (x_gh (xs p) 0) = Ok v' /\
     (forall g o, In g (x_gh (xs p) 0) -> owner_of xs 0 p g o -> v' g = x_val (xs (x_mas (xs p) g)) o) /\ (forall h, ~ In h (x_gh (xs p) 0) -> v' h = x_val (xs p) h)).
  { intros p Hp. destruct (g2l_ok n (G p)) as (g2 & E1 & E2). apply (af_nd _ _ _ _ _ _ AF). auto. intros q Hq. apply (af_in _ _ _ _ _ _ AF) in Hq; tauto.
    destruct (foldM_set (assign_coords (set_par (xs p) (ms p) 1) (ms p) g2 (offs (size gids) (G p) 0) (bs p)) (fun g => Some (own p g)) (x_gh (xs p) 0) (x_val (xs p))) as (v' & F & B1 & B2).
    - intros v g Hg. destruct (ghost_found n 0 xs ms flag G AF Hd SH 3 vals p (bs p) g g2 Hp (HB p Hp) E2 Hg) as (t & j & Ht & Et & F1 & F2 & F3 & F4 & Hj & Ho & Hh). fold gids in F1, F3, F4, Hh. unfold assign_coords. cbn [set_par x_mas x_gid]. rewrite F1. cbn [bind]. rewrite F2. cbn [bind]. rewrite F3. cbn [bind]. rewrite F4. cbn [bind].
      destruct (sh_ghost _ _ _ SH p g Hp Hg) as (Hq & _). rewrite (FO p g _ Hp Hg Ho). unfold vals in Hh.
      assert (LW : forall w, In w (map (x_val (xs (x_mas (xs p) g))) (x_ov (xs (x_mas (xs p) g)) 0)) -> length w = 3%nat) by (intros; apply (VV (x_mas (xs p) g)); auto).
      replace ((base G gids p t + Z.of_nat j) * 3) with (base G gids p t * 3 + Z.of_nat j * 3) by lia. rewrite (holds_block _ _ _ _ _ Hh). 2: lia. 2: { rewrite (concat_len 3) by auto. rewrite map_length. lia. }
      replace (Z.to_nat (Z.of_nat j * 3)) with (j * 3)%nat by lia. rewrite concat_block by (auto; rewrite map_length; auto). cbn [bind]. rewrite (nth_indep _ [] (x_val (xs (x_mas (xs p) g)) 0)) by (rewrite map_length; auto). rewrite map_nth. auto.
    - exists g2, v'. split; auto. split; auto. split; auto. intros g o Hg Ho. rewrite B1 by auto. apply FO; auto. }
  set (g2 := fun p => match g2l n (G p) with Ok g => g | _ => [] end).
  set (v' := fun p => match foldM (assign_coords (set_par (xs p) (ms p) 1) (ms p) (g2 p) (offs (size gids) (G p) 0) (bs p)) (x_val (xs p)) (x_gh (xs p) 0) with Ok v => v | _ => x_val (xs p) end).
  assert (CH : forall p, on n p -> g2l n (G p) = Ok (g2 p) /\ foldM (assign_coords (set_par (xs p) (ms p) 1) (ms p) (g2 p) (offs (size gids) (G p) 0) (bs p)) (x_val (xs p)) (x_gh (xs p) 0) = Ok (v' p) /\
     (forall g o, In g (x_gh (xs p) 0) -> owner_of xs 0 p g o -> v' p g = x_val (xs (x_mas (xs p) g)) o) /\ (forall h, ~ In h (x_gh (xs p) 0) -> v' p h = x_val (xs p) h)).
  { intros p Hp. destruct (RV p Hp) as (h2 & w & R1 & R2 & R3 & R4). assert (Eg : g2 p = h2) by (unfold g2; rewrite R1; auto). assert (Ev : v' p = w) by (unfold v'; rewrite Eg, R2; auto). rewrite Ev, Eg. auto. }
  clearbody g2 v'. exists (fun p => set_val (set_par (xs p) (ms p) 1) (v' p)). split; [|split].
  - intros lo. unfold MESH_UpdateVertexCoords. apply protocol_col. lia.
    eapply (protocol_bind _ _ n (lo + 1) (lo + 1 + 3) (lo + 5)); [lia|apply PE|]. cbv beta. cbn [set_par x_ov x_val x_p x_gid x_gh x_cur].
    apply protocol_lift with (v := vals). { intros p Hp. rewrite coords3_all by (intros; apply (VV p); auto). auto. }
    apply protocol_lift with (v := fun p => (ms p, G p)). { intros p Hp. apply (af_G _ _ _ _ _ _ AF). auto. }
    apply protocol_lift with (v := fun p => offs (size gids) (G p) 0). { intros p Hp. apply positions_ok. intros q Hq. rewrite (af_num _ _ _ _ _ _ AF) by auto. rewrite Hov. auto. apply (af_in _ _ _ _ _ _ AF p) in Hq; tauto. }
    apply protocol_lift with (v := g2). { intros p Hp. apply CH. auto. }
    replace (lo + 5) with (lo + 1 + 3 + 1) by lia. eapply (protocol_bind _ _ n (lo + 1 + 3) (lo + 1 + 3 + 1) (lo + 1 + 3 + 1)); [lia| |].
    { eapply protocol_ext; [|exact (PL (lo + 1 + 3))]. intros p Hp. cbv beta. unfold size, gids, gids_of. rewrite map_length. reflexivity. }
    cbv beta. apply protocol_lift with (v := v'). { intros p Hp. apply CH. auto. } apply protocol_ret.
  - intros p Hp. cbn [set_val set_par x_val]. split. repeat split. destruct (CH p Hp) as (_ & _ & C1 & C2). split; auto.
  - exact AH'.
Qed.
