(** Proofs about the exchange of values: MESH_XchngEdgeFaceAttrib. *)
From Coq Require Import ZArith List Lia Bool Arith ZifyBool ZifyNat Sorting.Sorted.
From Verif Require Import Base BaseProofs SortModel AttModel TopoModel ParModel ParProps CommModel CommProofs CommProofs2 ExchModel ExchProofs ExchProofs2 ExchProofs3 ExchProofs4 ExchProofs6.
Import ListNotations.
Open Scope Z_scope.

Lemma sorted_filter : forall (f : Z -> Z) c l, StronglySorted Z.lt (map f l) -> StronglySorted Z.lt (map f (filter c l)).
Proof.
  intros f c. induction l as [|x l IH]; intros H; cbn. constructor. cbn in H. inversion H as [|? ? H1 H2]; subst. destruct (c x); auto. cbn. constructor; auto. rewrite Forall_forall in *. intros y Hy. apply in_map_iff in Hy. destruct Hy as (z & <- & Hz). apply filter_In in Hz. apply H2. apply in_map. tauto.
Qed.

(** A copy on rank [j], on the boundary of [j], of an entity of rank [p]. *)
Definition bcopy (xs : Z -> xrank) (d p o j g : Z) : Prop := In g (x_gh (xs j) d) /\ x_mas (xs j) g = p /\ x_bnd (xs j) g = true /\ x_gid (xs j) g = x_gid (xs p) o.

Record bshared (n d : Z) (xs : Z -> xrank) : Prop := {
  bs_shared : shared n d xs;
  bs_sorted : forall p, on n p -> StronglySorted Z.lt (map (x_gid (xs p)) (x_gh (xs p) d));
  bs_apart : forall p h, on n p -> In h (x_gh (xs p) d) -> ~ In h (x_ov (xs p) d) }.

Lemma xchng_ok : forall N nregs a xs, (2 <= N)%nat -> let n := Z.of_nat N in let d := at_dim a in adj_history N xs -> attr_ok a -> bshared n d xs ->
  (d = 1 /\ (forall p, on n p -> nregs p = 0) \/ d = 2) ->
  (forall p o, on n p -> In o (x_ov (xs p) d) -> value_ok a (x_val (xs p) o)) -> (forall p g, on n p -> In g (x_gh (xs p) d) -> x_bnd (xs p) g = true -> value_ok a (x_val (xs p) g)) ->
  exists res, (forall lo, protocol n lo (lo + 9) (fun p => MESH_XchngEdgeFaceAttrib n p (nregs p) a (xs p)) res) /\
    (forall p, on n p -> same_entities (xs p) (res p) /\
       (forall g o, In g (x_gh (xs p) d) -> owner_of xs d p g o -> x_val (res p) g = if lost_value a (x_val (xs (x_mas (xs p) g)) o) then x_val (xs p) g else x_val (xs (x_mas (xs p) g)) o) /\
       (forall o j g, In o (x_ov (xs p) d) -> x_bnd (xs p) o = true -> on n j -> bcopy xs d p o j g -> (forall i h, on n i -> i < j -> ~ bcopy xs d p o i h) -> x_val (res p) o = if lost_value a (x_val (xs j) g) then x_val (xs p) o else x_val (xs j) g) /\
       (forall o, In o (x_ov (xs p) d) -> x_bnd (xs p) o = false \/ (forall j g, on n j -> ~ bcopy xs d p o j g) -> x_val (res p) o = x_val (xs p) o) /\
       (forall h, ~ In h (x_gh (xs p) d) -> ~ In h (x_ov (xs p) d) -> x_val (res p) h = x_val (xs p) h)) /\
    adj_history N res.
Proof.
  intros N nregs a xs HN n d AH A [SH GS AP] Hdim V VG.
  destruct (ensure_ok N xs HN AH) as (ms & flag & G & AF & AH' & PE). fold n in AF, PE. assert (Hd : 0 <= d <= 3) by lia.
  set (ys := fun p => set_par (xs p) (ms p) 1) in *.
  assert (SH' : shared n d ys) by (destruct SH as [B1 B2 B3]; constructor; [exact B1|exact B2|exact B3]).
  destruct (update1_ok N a ys HN AH' A SH' V) as (rs & PU & RU & AH''). fold n d in PU, RU.
  assert (Hmas : forall p g, on n p -> In g (x_gh (xs p) d) -> x_mas (xs p) g <> p) by (intros p g Hp Hg; apply (sh_ghost _ _ _ SH p g Hp Hg)).
  assert (Hrange : forall p g, on n p -> In g (x_gh (xs p) d) -> 0 <= x_gid (xs p) g < 2 ^ 31). { intros p g Hp Hg. destruct (sh_ghost _ _ _ SH p g Hp Hg) as (Hq & _ & o & O1 & <-). apply (sh_range _ _ _ SH); auto. }
  assert (Hsorted : forall p i, on n p -> on n i -> StronglySorted Z.lt (cg d xs p i)) by (intros; apply sorted_filter; auto).
  set (R := fun p => Rp n d flag p).
  set (g2 := fun p => match g2l n (R p) with Ok g => g | _ => [] end).
  assert (EG : forall p, on n p -> g2l n (R p) = Ok (g2 p) /\ forall t, (t < length (R p))%nat -> rd (g2 p) (nth t (R p) 0) = Ok (Z.of_nat t)).
  { intros p Hp. destruct (g2l_ok n (R p)) as (g & E1 & E2). apply Rp_nd. intros q Hq. apply (Rp_in n d flag Hd) in Hq. tauto. unfold g2. rewrite E1. auto. }
  destruct (back_protocol n d xs a ms flag G AF Hd A Hmas VG g2 (fun p Hp => proj2 (EG p Hp))) as (bs & PB & BO).
  pose proof (counts_protocol n d xs a ms flag G AF Hd Hmas VG) as PC.
  (* what the masters get *)
  assert (FV : forall p, on n p -> exists nw, (forall v o, In o (x_ov (xs p) d) -> assign_master a (rs p) (counts n d xs p) (R p) (offs (fun j => sz d xs j p) (R p) 0) (bs p) v o = Ok (match nw o with None => v | Some w => zupd v o w end)) /\
     (forall o j g, In o (x_ov (xs p) d) -> x_bnd (xs p) o = true -> on n j -> bcopy xs d p o j g -> (forall i h, on n i -> i < j -> ~ bcopy xs d p o i h) -> nw o = if lost_value a (x_val (xs j) g) then None else Some (x_val (xs j) g)) /\
     (forall o, In o (x_ov (xs p) d) -> x_bnd (xs p) o = false \/ (forall j g, on n j -> ~ bcopy xs d p o j g) -> nw o = None)).
  { intros p Hp. destruct (RU p Hp) as ((S1 & S2 & S3 & S4 & S5) & _).
    assert (CE : forall o j g, copy d xs (x_gid (xs p) o) p j g <-> bcopy xs d p o j g). { intros o j g. unfold copy, bcopy, mine. rewrite filter_In, andb_true_iff, Z.eqb_eq. tauto. }
    assert (NW : forall o, In o (x_ov (xs p) d) -> exists w, (forall v, assign_master a (rs p) (counts n d xs p) (R p) (offs (fun j => sz d xs j p) (R p) 0) (bs p) v o = Ok (match w with None => v | Some w => zupd v o w end)) /\
       (forall j g, x_bnd (xs p) o = true -> on n j -> bcopy xs d p o j g -> (forall i h, on n i -> i < j -> ~ bcopy xs d p o i h) -> w = if lost_value a (x_val (xs j) g) then None else Some (x_val (xs j) g)) /\
       (x_bnd (xs p) o = false \/ (forall j g, on n j -> ~ bcopy xs d p o j g) -> w = None)).
    { intros o Ho. unfold assign_master. rewrite S5, S3. cbn [ys set_par x_bnd x_gid]. destruct (x_bnd (xs p) o) eqn:EB; cbn [negb].
      - destruct (first_found_ok n d xs a ms flag G AF Hd Hmas VG Hsorted Hrange p (bs p) (x_gid (xs p) o) Hp (BO p Hp) (sh_range _ _ _ SH p o Hp Ho)) as (r & E & H). fold (R p) in E, H. rewrite E. cbn [bind]. destruct r as [i|].
        + destruct H as (t & s & Ei & Ht & Hs & C & Low). set (j := nth t (R p) 0) in *. assert (Oj : on n j) by (apply (Rp_in n d flag Hd p); apply nth_In; auto).
          destruct (BO p Hp) as (_ & _ & BO'). destruct (BO' t Ht) as [_ HV]. unfold on in Oj. fold (R p) j. lia. fold (R p) j in HV. unfold cv in HV. rewrite Ei. rewrite (new_value_ok a _ _ _ _ A) with (2 := HV). 3: rewrite map_length; auto. 2: { intros v Hv. apply in_map_iff in Hv. destruct Hv as (g & <- & Hg). apply filter_In in Hg. destruct Hg as [G1 G2]. apply andb_true_iff in G2. apply VG; tauto. }
          cbn [bind]. rewrite (nth_indep _ [] (x_val (xs j) 0)) by (rewrite map_length; auto). rewrite map_nth. set (g := nth s (mine d xs j p) 0) in *. eexists. split. reflexivity. apply CE in C. split.
          * intros j' g' _ Oj' C' Low'. assert (j' = j). { destruct (Z.lt_trichotomy j j') as [L|[L|L]]; auto. exfalso. apply (Low' j g Oj L C). exfalso. apply CE in C'. apply (Low j' g' Oj' L C'). } subst j'.
            assert (g' = g). { destruct C as (X1 & _ & _ & X2), C' as (Y1 & _ & _ & Y2). destruct (In_nth _ _ 0 X1) as (i1 & I1 & <-). destruct (In_nth _ _ 0 Y1) as (i2 & I2 & <-). f_equal. apply (sorted_inj (map (x_gid (xs j)) (x_gh (xs j) d))); auto. rewrite map_length; auto. rewrite map_length; auto. rewrite !(nth_indep (map (x_gid (xs j)) (x_gh (xs j) d)) 0 (x_gid (xs j) 0)) by (rewrite map_length; auto). rewrite !map_nth. congruence. } subst g'. reflexivity.
          * intros [X|X]. discriminate. exfalso. apply (X j g Oj C).
        + exists None. split. reflexivity. split. intros j g _ Oj C _. exfalso. apply CE in C. apply (H j g Oj C). auto.
      - exists None. split. reflexivity. split. discriminate. auto. }
    assert (CHO : forall l, (forall o, In o l -> In o (x_ov (xs p) d)) -> exists nw, forall o, In o l -> (forall v, assign_master a (rs p) (counts n d xs p) (R p) (offs (fun j => sz d xs j p) (R p) 0) (bs p) v o = Ok (match nw o with None => v | Some w => zupd v o w end)) /\
       (forall j g, x_bnd (xs p) o = true -> on n j -> bcopy xs d p o j g -> (forall i h, on n i -> i < j -> ~ bcopy xs d p o i h) -> nw o = if lost_value a (x_val (xs j) g) then None else Some (x_val (xs j) g)) /\
       (x_bnd (xs p) o = false \/ (forall j g, on n j -> ~ bcopy xs d p o j g) -> nw o = None)).
    { induction l as [|o l IH]; intros Hl. exists (fun _ => None). intros o []. destruct IH as (nw & IH). intros; apply Hl; cbn; auto. destruct (NW o) as (w & Hw). apply Hl; cbn; auto. exists (fun h => if h =? o then w else nw h). intros h Hh. destruct (Z.eqb_spec h o) as [->|Ne]. exact Hw. apply IH. destruct Hh; [congruence|auto]. }
    destruct (CHO (x_ov (xs p) d) (fun o H => H)) as (nw & H). exists nw. split. intros v o Ho. apply (H o Ho). split. intros o j g Ho. apply (H o Ho). intros o Ho. apply (H o Ho). }
  assert (FR : forall p, on n p -> exists v', foldM (assign_master a (rs p) (counts n d xs p) (R p) (offs (fun j => sz d xs j p) (R p) 0) (bs p)) (x_val (rs p)) (x_ov (xs p) d) = Ok v' /\
     (forall g o, In g (x_gh (xs p) d) -> owner_of xs d p g o -> v' g = if lost_value a (x_val (xs (x_mas (xs p) g)) o) then x_val (xs p) g else x_val (xs (x_mas (xs p) g)) o) /\
       (forall o j g, In o (x_ov (xs p) d) -> x_bnd (xs p) o = true -> on n j -> bcopy xs d p o j g -> (forall i h, on n i -> i < j -> ~ bcopy xs d p o i h) -> v' o = if lost_value a (x_val (xs j) g) then x_val (xs p) o else x_val (xs j) g) /\
       (forall o, In o (x_ov (xs p) d) -> x_bnd (xs p) o = false \/ (forall j g, on n j -> ~ bcopy xs d p o j g) -> v' o = x_val (xs p) o) /\
       (forall h, ~ In h (x_gh (xs p) d) -> ~ In h (x_ov (xs p) d) -> v' h = x_val (xs p) h)).
  { intros p Hp. destruct (FV p Hp) as (nw & F1 & F2 & F3). destruct (RU p Hp) as (_ & U1 & U2). change (x_val (ys p)) with (x_val (xs p)) in U1, U2. change (x_gh (ys p)) with (x_gh (xs p)) in U1, U2.
    destruct (foldM_set _ nw (x_ov (xs p) d) (x_val (rs p)) F1) as (v' & E & B1 & B2). exists v'. split. exact E.
    assert (OV : forall o, In o (x_ov (xs p) d) -> x_val (rs p) o = x_val (xs p) o). { intros o Ho. apply U2. intro X. apply (AP p o Hp X Ho). }
    split; [|split; [|split]].
    - intros g o Hg Ho. rewrite B2 by (apply AP; auto). apply U1; auto.
    - intros o j g Ho Hb Hj C L. rewrite B1 by auto. rewrite (F2 o j g Ho Hb Hj C L). rewrite OV by auto. destruct (lost_value a _); auto.
    - intros o Ho Hc. rewrite B1 by auto. rewrite F3 by auto. auto.
    - intros h H1 H2. rewrite B2 by auto. apply U2. auto. }
  set (v' := fun p => match foldM (assign_master a (rs p) (counts n d xs p) (R p) (offs (fun j => sz d xs j p) (R p) 0) (bs p)) (x_val (rs p)) (x_ov (xs p) d) with Ok v => v | _ => x_val (xs p) end).
  assert (FR' : forall p, on n p -> foldM (assign_master a (rs p) (counts n d xs p) (R p) (offs (fun j => sz d xs j p) (R p) 0) (bs p)) (x_val (rs p)) (x_ov (xs p) d) = Ok (v' p)). { intros p Hp. destruct (FR p Hp) as (w & E & _). unfold v'. rewrite E. auto. }
  exists (fun p => set_val (rs p) (v' p)). split; [|split].
  - intros lo. unfold MESH_XchngEdgeFaceAttrib. fold d. replace (n =? 1) with false by (unfold n; lia).
    assert (NP : at_ty a <> TPOINTER) by (destruct A as [_ A]; intro E; rewrite E in A; auto).
    apply protocol_ext with (qs := fun p => x <~ ensure_adj n p (xs p) ;;
          if negb (d =? 1) && negb (d =? 2) then Fail
          else
            let m := x_p x in let gh := x_gh x d in
            rs <~ pfold (counts_with m p d (x_mas x) (x_bnd x) gh) (ranks n) (repeat 0 (Z.to_nat n)) ;;
            rp <! overlap_procs m p d (ranks n) ;;
            g2 <! g2l n rp ;;
            pos <! offsets rs rp 0 ;;
            b <~ pfold (back_with m p d (vtype a) (width a) (x_mas x) (x_bnd x) (x_gid x) (fun l => sent_all a (map (x_val x) l)) gh rs g2 pos)
                   (ranks n) (malloc (last pos 0), malloc (last pos 0 * width a)) ;;
            y <~ MESH_Update1Attribute n p a x ;;
            v <! foldM (assign_master a y rs rp pos b) (x_val y) (x_ov y d) ;;
            Ret (set_val y v)).
    { intros p Hp. assert (C : (d =? 0) || (d =? 1) && negb (nregs p =? 0) || (d =? 3) = false). { destruct Hdim as [[D1 D2]|D]. rewrite D2 by auto. lia. lia. } destruct (at_ty a); try congruence; rewrite C; reflexivity. }
    eapply (protocol_bind _ _ n lo (lo + 3) (lo + 9)); [lia|apply PE|]. cbv beta. cbv zeta. replace (negb (d =? 1) && negb (d =? 2)) with false by lia. fold (ys). change (fun p : Z => set_par (xs p) (ms p) 1) with ys. 
    eapply (protocol_bind _ _ n (lo + 3) (lo + 3 + 1) (lo + 9)); [lia|apply PC|]. cbv beta.
    apply protocol_lift with (v := R). { intros p Hp. apply (overlap_procs_ok n d xs ms flag G AF Hd p); auto. intros j Hj. apply in_ranks. auto. }
    apply protocol_lift with (v := g2). { intros p Hp. apply EG. auto. }
    apply protocol_lift with (v := fun p => offs (fun j => sz d xs j p) (R p) 0). { intros p Hp. apply (offsets_ok n d xs a Hmas VG). intros j Hj. apply (Rp_in n d flag Hd) in Hj. tauto. }
    eapply (protocol_bind _ _ n (lo + 3 + 1) (lo + 3 + 1 + 1) (lo + 9)); [lia|apply PB|]. cbv beta.
    replace (lo + 9) with (lo + 3 + 1 + 1 + 4) by lia. eapply (protocol_bind _ _ n (lo + 3 + 1 + 1) (lo + 3 + 1 + 1 + 4)); [lia|apply PU|]. cbv beta.
    apply protocol_lift with (v := v'). { intros p Hp. destruct (RU p Hp) as ((_ & S2 & _) & _). rewrite S2. apply FR'. auto. } apply protocol_ret.
  - intros p Hp. split. { destruct (RU p Hp) as ((S1 & S2 & S3 & S4 & S5) & _). unfold same_entities. cbn [set_val x_gh x_ov x_gid x_mas x_bnd]. rewrite S1, S2, S3, S4, S5. repeat split. }
    cbn [set_val x_val]. destruct (FR p Hp) as (w & E & X). rewrite (FR' p Hp) in E. inversion E; subst w. exact X.
  - exact AH''.
Qed.
