(** Proofs about the graph handed to METIS. *)
From Coq Require Import ZArith List Lia Bool Arith ZifyBool ZifyNat Permutation.
From Verif Require Import Base BaseProofs ListSpec HashProofs AttModel AttProps ParModel ParProps TopoModel TopoSpec TopoProofs TopoProofs2 TopoProofs3 TopoProofs4 TopoProofs5 TopoProofs6 TopoProofs7 TopoProps TopoProps2 TopoProps3 GraphProofs GraphProofs2 GraphProps ElGraphProps MetisModel.
Import ListNotations.
Open Scope Z_scope.

(** ** Arrays *)

Lemma push_list : forall ys adj n m, starts adj n m -> ZL m <= n ->
  (ZL (m ++ ys) <= n -> exists adj', foldM push (adj, ZL m) ys = Ok (adj', ZL (m ++ ys)) /\ starts adj' n (m ++ ys)) /\
  (n < ZL (m ++ ys) -> foldM push (adj, ZL m) ys = Undef).
Proof.
  induction ys as [|y ys IH]; intros adj n m HS Hm; cbn [foldM].
  - rewrite app_nil_r. split. eauto. lia.
  - unfold push at 1 3. destruct (Z.eq_dec (ZL m) n) as [E|E].
    + split. unfold ZL in *. rewrite app_length. cbn. lia. intros _. assert (W : wr adj (ZL m) y = Undef). { unfold wr. destruct HS as (L & _). replace ((0 <=? ZL m) && (ZL m <? Z.of_nat (length adj))) with false; auto. lia. } rewrite W. auto.
    + destruct (starts_snoc adj n m y HS) as (adj' & Ew & S'). lia. rewrite Ew. cbn [bind]. replace (m ++ y :: ys) with ((m ++ [y]) ++ ys) by (rewrite <- app_assoc; auto). replace (ZL m + 1) with (ZL (m ++ [y])) by (unfold ZL; rewrite app_length; cbn; lia).
      apply IH; auto. unfold ZL in *. rewrite app_length. cbn. lia.
Qed.

Lemma starts_at_len : forall nbs, ZL (starts_at nbs) = Zlen nbs.
Proof. intros. unfold ZL, Zlen, starts_at. rewrite map_length, seq_length. auto. Qed.

Section Loop.
Variables (els : list ptr) (c : ptr -> list Z) (cell : ptr -> array Z * Z -> result (array Z * Z)).
Hypothesis HI : forall x st, In x els -> cell x st = foldM push st (c x).
Let body := fun (st : array Z * array Z * Z * Z) (x : ptr) => let '(xadj, adj, ipos, i) := st in '(adj, ipos) <- cell x (adj, ipos) ;; xadj <- wr xadj (i + 1) ipos ;; Ok (xadj, adj, ipos, i + 1).

Lemma mloop : forall xs nbs beg adj n, (forall x, In x xs -> In x els) -> starts beg (ZL els + 1) (starts_at nbs ++ [ZL (concat nbs)]) -> starts adj n (concat nbs) -> ZL (concat nbs) <= n -> Zlen nbs + ZL xs = ZL els ->
  (ZL (concat (nbs ++ map c xs)) <= n -> exists beg' adj', foldM body (beg, adj, ZL (concat nbs), Zlen nbs) xs = Ok (beg', adj', ZL (concat (nbs ++ map c xs)), ZL els) /\ starts beg' (ZL els + 1) (starts_at (nbs ++ map c xs) ++ [ZL (concat (nbs ++ map c xs))]) /\ starts adj' n (concat (nbs ++ map c xs))) /\
  (n < ZL (concat (nbs ++ map c xs)) -> foldM body (beg, adj, ZL (concat nbs), Zlen nbs) xs = Undef).
Proof using HI.
  induction xs as [|x xs IH]; intros nbs beg adj n Hx HB HA HL Hn; cbn [foldM map].
  - rewrite app_nil_r. split; [|lia]. intros _. exists beg, adj. split; auto. unfold ZL in Hn at 1. cbn in Hn. do 2 f_equal. lia.
  - unfold body at 1 3. rewrite HI by (apply Hx; left; auto). destruct (push_list (c x) adj n (concat nbs) HA HL) as (P1 & P2). rewrite <- concat_snoc in P1, P2.
    replace (nbs ++ c x :: map c xs) with ((nbs ++ [c x]) ++ map c xs) by (rewrite <- app_assoc; auto).
    destruct (Z.le_gt_cases (ZL (concat (nbs ++ [c x]))) n) as [C|C].
    + destruct (P1 C) as (adj' & E & HA'). rewrite E. cbn [bind].
      assert (LS : ZL (starts_at nbs ++ [ZL (concat nbs)]) = Zlen nbs + 1) by (unfold ZL at 1; rewrite app_length; pose proof (starts_at_len nbs) as Q; unfold ZL in Q at 1; cbn; lia).
      destruct (starts_snoc beg (ZL els + 1) _ (ZL (concat (nbs ++ [c x]))) HB) as (beg' & Ew & HB'). { rewrite LS. unfold ZL in *. cbn in Hn. lia. }
      rewrite LS in Ew. rewrite Ew. cbn [bind]. rewrite <- (starts_at_snoc nbs (c x)) in HB'. replace (Zlen nbs + 1) with (Zlen (nbs ++ [c x])) by (unfold Zlen; rewrite app_length; cbn; lia). apply IH; auto. intros; apply Hx; right; auto. unfold Zlen, ZL in *. rewrite app_length. cbn in *. lia.
    + rewrite P2 by lia. cbn [bind]. split; auto. intros HH. exfalso. rewrite concat_app in HH. unfold ZL in *. rewrite app_length in HH. lia.
Qed.

Lemma metis_loop_ok : forall room, els <> [] -> 0 <= room ->
  (ZL (concat (map c els)) <= room -> exists beg adj, metis_loop cell els room = Ok (beg, adj) /\ graph_arrays (map c els) beg adj /\ Z.of_nat (length adj) = room) /\
  (room < ZL (concat (map c els)) -> metis_loop cell els room = Undef).
Proof using HI.
  intros room Ne Hr. unfold metis_loop. assert (Hn : 0 < ZL els) by (destruct els; [congruence|unfold ZL; cbn; lia]).
  destruct (starts_snoc (malloc (ZL els + 1)) (ZL els + 1) [] 0) as (b0 & E0 & S0). apply starts_nil, malloc_len. lia. unfold ZL at 1. cbn. lia. change (ZL []) with 0 in E0. rewrite E0. cbn [bind].
  destruct (mloop els [] b0 (malloc room) room) as (P1 & P2); auto. apply starts_nil, malloc_len. lia. cbn [app] in P1, P2. change (ZL (concat [])) with 0 in P1, P2. change (Zlen (@nil (list Z))) with 0 in P1, P2. unfold body in P1, P2.
  split; intros H.
  - destruct (P1 H) as (beg & adj & E & HB & HA). rewrite E. cbn [bind]. exists beg, adj. split; auto. split; [|apply HA]. eapply graph_arrays_of; eauto. replace (Zlen (map c els)) with (ZL els) by (unfold Zlen, ZL; rewrite map_length; auto). auto.
  - rewrite P2 by auto. auto.
Qed.
End Loop.

(** ** One cell *)

Lemma foldM_lents : forall S (F : S -> ptr -> result S) l s, foldM (fun s j => x <- lent l j ;; F s x) s (zrange 0 (ZL l)) = foldM F s l.
Proof.
  intros S F l. assert (G : forall r p s, l = p ++ r -> foldM (fun s j => x <- lent l j ;; F s x) s (zrange (ZL p) (ZL l)) = foldM F s r).
  { induction r as [|x r IH]; intros p s E.
    - rewrite app_nil_r in E. subst p. rewrite zrange_nil by lia. auto.
    - rewrite zrange_cons by (subst l; unfold ZL; rewrite app_length; cbn; lia). cbn [foldM]. assert (EL : lent l (ZL p) = Ok x). { subst l. unfold lent, ZL. replace (Z.of_nat (length p) <? 0) with false by lia. rewrite Nat2Z.id, app_nth2, Nat.sub_diag by lia. auto. }
      rewrite EL. cbn [bind]. destruct (F s x) as [s'| | |]; cbn [bind]; auto. replace (ZL p + 1) with (ZL (p ++ [x])) by (unfold ZL; rewrite app_length; cbn; lia). apply IH. rewrite <- app_assoc. auto. }
  intros s. apply (G l []). auto.
Qed.

Lemma regs_two : forall t f, (length (regs_of t f) <= 2)%nat.
Proof. intros t f. unfold regs_of, MF_Regions. destruct (getf t f); cbn [bind]; try (cbn; lia). destruct (_ =? _), (_ =? _); cbn; lia. Qed.

Lemma metis_region_ok : forall t a rid mr b, reach t a -> a_r a mr = Some (true, Some b) -> forall st, metis_region t rid mr st = foldM push st (map (fun q => rid q - 1) (opps (regs_of t) mr (map fst b))).
Proof.
  intros t a rid mr b R Hr st. pose proof (reach_inv _ _ R) as I. destruct (inv_rfull _ _ _ _ _ I Hr) as (x & l & Hx & _ & Hl & (El & _) & _).
  unfold metis_region, MR_Faces, getr. rewrite Hx. cbn [bind]. rewrite Hl. cbn [bind nn]. rewrite El.
  match goal with |- foldM ?F _ _ = _ => set (body := F) end.
  assert (G : forall fs, (forall f, In f fs -> uses_face a mr f) -> forall st, foldM body st fs = foldM push st (map (fun q => rid q - 1) (opps (regs_of t) mr fs))).
  { induction fs as [|f fs IH]; intros Hfs st0; cbn [foldM]; auto. unfold opps. cbn [flat_map]. rewrite map_app, foldM_bind_app. fold (opps (regs_of t) mr fs).
    destruct (regs_of_ok t a mr f R) as (Ef & N & H). apply Hfs; left; auto. pose proof (regs_two t f) as Len. set (lf := regs_of t f) in *. assert (Im : In mr lf) by (apply H, Hfs; left; auto).
    assert (ST : body st0 f = foldM push st0 (map (fun q => rid q - 1) (filter (fun q => negb (q =? mr)) lf))).
    { unfold body. rewrite Ef. cbn [bind]. clearbody lf. clear - N Im Len. destruct lf as [|u [|v [|w lf]]]; cbn in Len; try lia. destruct Im.
      - destruct Im as [->|[]]. change (1 <? ZL [mr]) with false. cbv iota. cbn [filter]. rewrite Z.eqb_refl. reflexivity.
      - change (1 <? ZL [u; v]) with true. cbv iota. change (lent [u; v] 0) with (Ok u). change (lent [u; v] 1) with (Ok v). cbn [bind filter]. inversion N as [|? ? N1 _]; subst. cbn in N1. destruct Im as [->|[->|[]]].
        + rewrite Z.eqb_refl. cbn [bind negb]. destruct (Z.eqb_spec v mr); [subst; tauto|]. cbn [negb map foldM]. destruct (push st0 (rid v - 1)); auto.
        + rewrite Z.eqb_refl. destruct (Z.eqb_spec u mr); [subst; tauto|]. cbn [bind negb map foldM]. destruct (push st0 (rid u - 1)); auto. }
    rewrite ST. destruct (foldM push st0 _) as [st1| | |]; cbn [bind]; auto. apply IH. intros; apply Hfs; right; auto. }
  apply G. intros f Hf. apply in_map_iff in Hf. destruct Hf as ([f' d] & <- & Hd). exists d, b. auto.
Qed.

Lemma metis_face_ok : forall t a fid mf b, reach t a -> a_f a mf = Some (true, Some b) -> forall st, metis_face t fid mf st = foldM push st (map (fun q => fid q - 1) (opps (faces_of t) mf (map fst b))).
Proof.
  intros t a fid mf b R Hf st. pose proof (reach_inv _ _ R) as I. pose proof (face_edges_query t a mf b true I Hf) as Q. change (walk true b) with b in Q. change (b2z true) with 1 in Q.
  unfold metis_face. rewrite Q. cbn [bind].
  match goal with |- foldM ?F _ _ = _ => set (body := F) end.
  assert (G : forall es, (forall e, In e es -> has_edge a mf e) -> forall st, foldM body st es = foldM push st (map (fun q => fid q - 1) (opps (faces_of t) mf es))).
  { induction es as [|e es IH]; intros Hes st0; cbn [foldM]; auto. unfold opps. cbn [flat_map]. rewrite map_app, foldM_bind_app. fold (opps (faces_of t) mf es).
    destruct (faces_of_ok t a mf e R) as (Ef & N & H). apply Hes; left; auto. set (lf := faces_of t e) in *. assert (Im : In mf lf) by (apply H, Hes; left; auto).
    assert (ST : body st0 e = foldM push st0 (map (fun q => fid q - 1) (filter (fun q => negb (q =? mf)) lf))).
    { unfold body. rewrite Ef. cbn [bind nn]. rewrite (foldM_lents _ (fun st oppf => if negb (oppf =? mf) then push st (fid oppf - 1) else Ok st)). assert (GG : forall l st0, foldM (fun st ef => if negb (ef =? mf) then push st (fid ef - 1) else Ok st) st0 l = foldM push st0 (map (fun q => fid q - 1) (filter (fun q => negb (q =? mf)) l))).
      { clear. induction l as [|q l IH]; intros; cbn [foldM filter]; auto. destruct (negb (q =? mf)); cbn [map foldM bind]; auto. destruct (push st0 (fid q - 1)); cbn [bind]; auto. }
      destruct (Z.eqb_spec (ZL lf) 1) as [E1|E1]; auto. destruct lf as [|u [|v lf]]; unfold ZL in E1; cbn in E1; try lia. destruct Im as [->|[]]. cbn. rewrite Z.eqb_refl. auto. }
    rewrite ST. destruct (foldM push st0 _) as [st1| | |]; cbn [bind]; auto. apply IH. intros; apply Hes; right; auto. }
  apply G. intros e He. exists b. auto.
Qed.

(** ** Room *)

Lemma opps_le : forall L x its, (forall f, In f its -> NoDup (L f) /\ In x (L f) /\ (length (L f) <= 2)%nat) -> (length (opps L x its) <= length its)%nat.
Proof.
  intros L x. unfold opps. induction its as [|f its IH]; intros H; cbn [flat_map]; auto. rewrite app_length. cbn [length]. assert (Q : (length (filter (fun q => negb (q =? x)%Z) (L f)) <= 1)%nat).
  { destruct (H f (or_introl eq_refl)) as (_ & I & Len). clear - I Len. destruct (L f) as [|u [|v [|w l]]]; cbn in Len; try lia. destruct I. cbn. destruct (negb (u =? x)); cbn; lia.
    cbn. destruct I as [->|[->|[]]]; rewrite Z.eqb_refl; cbn. destruct (negb (v =? x)); cbn; lia. destruct (negb (u =? x)); cbn; lia. }
  specialize (IH (fun g Hg => H g (or_intror Hg))). lia.
Qed.
Lemma incid_nd : forall (its : ptr -> list ptr) els, NoDup els -> (forall x, In x els -> NoDup (its x)) -> NoDup (flat_map (fun x => map (pair x) (its x)) els).
Proof.
  intros its. induction els as [|x els IH]; intros N H; cbn [flat_map]. constructor. inversion N; subst. apply NoDup_app_intro'.
  - apply FinFun.Injective_map_NoDup. intros p q E. congruence. apply H. left; auto.
  - apply IH; auto. intros; apply H; right; auto.
  - intros [p q] I1 I2. apply in_map_iff in I1. destruct I1 as (? & E & _). inversion E; subst p. apply in_flat_map in I2. destruct I2 as (y & Hy & I2). apply in_map_iff in I2. destruct I2 as (? & E2 & _). inversion E2; subst y. tauto.
Qed.
Lemma flat_len : forall A B (g : A -> list B) l k, (forall x, In x l -> (length (g x) <= k)%nat) -> (length (flat_map g l) <= k * length l)%nat.
Proof. intros A B g l k. induction l as [|x l IH]; intros H; cbn [flat_map length]. lia. rewrite app_length. specialize (H x (or_introl eq_refl)) as Q. specialize (IH (fun y Hy => H y (or_intror Hy))). lia. Qed.
Lemma concat_opps_le : forall L (its : ptr -> list ptr) (id : ptr -> Z) els, (forall x f, In x els -> In f (its x) -> NoDup (L f) /\ In x (L f) /\ (length (L f) <= 2)%nat) ->
  (length (concat (map (fun x => map (fun q => id q - 1)%Z (opps L x (its x))) els)) <= length (flat_map (fun x => map (pair x) (its x)) els))%nat.
Proof.
  intros L its id. induction els as [|x els IH]; intros H; cbn [map concat flat_map]; auto. rewrite !app_length, !map_length. specialize (IH (fun y f Hy => H y f (or_intror Hy))). pose proof (opps_le L x (its x) (fun f => H x f (or_introl eq_refl))). lia.
Qed.
(** Cells with items of at most two cells: two entries for every item are enough. *)
Lemma room_ok : forall L (its : ptr -> list ptr) (id : ptr -> Z) els items, NoDup els -> (forall x, In x els -> NoDup (its x)) -> (forall x f, In x els -> In f (its x) -> In f items /\ NoDup (L f) /\ In x (L f) /\ (length (L f) <= 2)%nat) ->
  ZL (concat (map (fun x => map (fun q => id q - 1) (opps L x (its x))) els)) <= 2 * ZL items.
Proof.
  intros L its id els items ND NI H. set (P := flat_map (fun x => map (pair x) (its x)) els). set (Q := flat_map (fun f => map (fun x => (x, f)) (if (length (L f) <=? 2)%nat then L f else [])) items).
  assert (A : (length (concat (map (fun x => map (fun q => id q - 1)%Z (opps L x (its x))) els)) <= length P)%nat) by (apply concat_opps_le; intros x f Hx Hf; apply (H x f Hx Hf)).
  assert (B : (length P <= length Q)%nat). { apply NoDup_incl_length. apply incid_nd; auto. intros [x f] I. apply in_flat_map in I. destruct I as (x' & Hx & I). apply in_map_iff in I. destruct I as (f' & E & Hf). inversion E; subst x' f'. destruct (H x f Hx Hf) as (I1 & _ & I2 & I3). apply in_flat_map. exists f. split; auto. apply in_map_iff. exists x. split; auto. apply Nat.leb_le in I3. rewrite I3. auto. }
  assert (C : (length Q <= 2 * length items)%nat). { apply flat_len. intros f _. rewrite map_length. destruct (Nat.leb_spec (length (L f)) 2); cbn; lia. }
  unfold ZL. lia.
Qed.

(** ** The answer of METIS *)

Lemma copy_parts : forall (ip : array Z) (g : Z -> Z) n, 0 <= n -> (forall i, 0 <= i < n -> rd ip i = Ok (g i)) -> foldM (fun part i => x <- rd ip i ;; wr part i x) (malloc n) (zrange 0 n) = Ok (map Some (map g (zrange 0 n))).
Proof.
  intros ip g n Hn H. destruct (foldM_up _ (fun k part => starts part n (map g (zrange 0 k))) (fun part i => x <- rd ip i ;; wr part i x) 0 n (malloc n)) as (s & E & HS); auto.
  - rewrite zrange_nil by lia. apply starts_nil, malloc_len. lia.
  - intros k s Hk HS. rewrite H by auto. cbn [bind]. assert (LK : ZL (map g (zrange 0 k)) = k) by (unfold ZL, zrange; rewrite !map_length, seq_length; lia). destruct (starts_snoc s n _ (g k) HS) as (s' & E & HS'). lia. rewrite LK in E. exists s'. split; auto. replace (zrange 0 (k + 1)) with (zrange 0 k ++ [k]); [rewrite map_app; auto|].
    unfold zrange. replace (Z.to_nat (k + 1 - 0)) with (S (Z.to_nat (k - 0))) by lia. rewrite seq_S, map_app. cbn [map]. do 2 f_equal. lia.
  - rewrite E. f_equal. apply starts_full. replace (ZL (map g (zrange 0 n))) with n; auto. unfold ZL, zrange. rewrite !map_length, seq_length. lia.
Qed.
Lemma answer_rd : forall (g : Z -> Z) n i, 0 <= i < n -> rd (map (fun i => Some (g i)) (zrange 0 n)) i = Ok (g i).
Proof.
  intros g n i Hi. unfold rd. replace (0 <=? i) with true by lia. unfold zrange. rewrite map_map, nth_error_map. rewrite (nth_error_nth' _ 0%nat) by (rewrite seq_length; lia). rewrite seq_nth by lia. cbn. do 2 f_equal. lia.
Qed.
