(** Every rank gets its part with its ghosts. *)
From Coq Require Import ZArith Bool String Floats.SpecFloat List Lia Arith ZifyBool ZifyNat.
From Verif Require Import Base BaseProofs ListSpec AttModel AttProps TopoModel TopoSpec TopoProofs TopoProofs2 TopoProps TopoProps2 ParModel CommModel ExchModel GidModel FileModel FileSpec FileProofs4 SendModel SendSpec SendProps PartModel PartSpec PartProofs PartProofs3 PartProps PartProps2 CopyModel GhostModel GhostSpec GhostProofs GhostProofs2 GhostProps CloneModel CloneSpec CloneProps DistModel DistSpec DistProofs.
Import ListNotations.
Open Scope Z_scope.

(** ** One rank *)
Definition bare_att (a : attr) : attr := mkAttr (at_name a) (at_type a) (if is_vec (at_type a) then at_ncomp a else 1) (at_ent a) (fun _ => None).
Definition dressed (sub : smesh) (atts : list attr) : smesh :=
  mkSM (let m := sm_m sub in mkFM (fm_t m) (fm_c m) (fm_x m) (fm_id m) (fm_v m) (fm_e m) (fm_f m) (fm_r m) atts) (sm_p sub) [].
Definition good_dcl (x : attr) : Prop := short (at_name x) /\ match at_type x with TVECTOR | TTENSOR => at_ncomp x <> 1 | _ => at_ncomp x = 1 end.
Definition all_atts (s : smesh) : list attr := l2gatt :: map bare_att (satts s ++ [g2latt]).
Lemma declare_ok : forall s sub, Forall good_dcl (satts s) -> declare s sub = Ok (dressed sub (all_atts s)).
Proof.
  intros s sub G. unfold declare. change (fm_atts (sm_m s)) with (satts s). assert (G' : Forall good_dcl (satts s ++ [g2latt])) by (apply Forall_app; split; auto; constructor; [split; [vm_compute; discriminate|reflexivity]|constructor]).
  change (mkSM (sm_m (set_atts sub [l2gatt])) (sm_p sub) []) with (dressed sub [l2gatt]). unfold all_atts. change (l2gatt :: map bare_att (satts s ++ [g2latt])) with ([l2gatt] ++ map bare_att (satts s ++ [g2latt])). generalize [l2gatt]. clear G. induction G' as [|x l [G1 G2] _ IH]; intro atts; cbn [foldM map]; [rewrite app_nil_r; auto|].
  unfold short_name. unfold short in G1. replace (Z.of_nat (length (at_name x)) <=? 255) with true by lia. cbn [negb]. unfold new_att.
  assert (X : is_vec (at_type x) && (at_ncomp x =? 1) = false) by (unfold is_vec; destruct (at_type x); auto; apply Z.eqb_neq in G2; rewrite G2; auto). rewrite X. cbn [bind].
  change (set_atts (dressed sub atts) (fm_atts (sm_m (dressed sub atts)) ++ [mkAttr (at_name x) (at_type x) (if is_vec (at_type x) then at_ncomp x else 1) (at_ent x) (fun _ => None)])) with (dressed sub (atts ++ [bare_att x])). rewrite IH, <- app_assoc. reflexivity.
Qed.

Lemma deliver_ok : forall s k sub a', Forall good_dcl (satts s) -> (forall atts, sendable (dressed sub atts) a' false) ->
  exists m a2 phi, deliver s (k, sub) = Ok m /\ mesh_copy false (dressed sub []) (bare m) a' a2 phi /\ sm_sets m = [] /\
    if k =? 0 then Forall2 (att_cloned (dressed sub (all_atts s)) phi) (cloned_atts (dressed sub (all_atts s))) (satts m) else satts m = [].
Proof.
  intros s k sub a' G S. unfold deliver. cbn [fst snd]. rewrite declare_ok by auto. cbn [bind]. destruct (k =? 0) eqn:K.
  - destruct (C50_copy (dressed sub (all_atts s)) a' true true) as (m & a2 & phi & E & MC & FA & FS).
    + exists (fm_id (sm_m sub)). exact (proj1 (S (all_atts s))).
    + intros _. unfold all_atts. cbn [dressed satts sm_m fm_atts]. assert (X : forall x, good_dcl x -> good_catt (dressed sub (all_atts s)) (bare_att x)).
      { intros x [G1 G2]. constructor; [exact G1| |discriminate]. cbn [bare_att at_type at_ncomp]. destruct (at_type x); auto. }
      constructor; [|apply Forall_map, Forall_app; split; [eapply Forall_impl; [|exact G]; auto|constructor; [apply X; split; [vm_compute; discriminate|reflexivity]|constructor]]].
      apply (X l2gatt). split; [vm_compute; discriminate|reflexivity].
    + intros _. constructor.
    + exists m, a2, phi. split; auto. split; [destruct MC; constructor; auto|]. split; [inversion FS; auto|exact FA].
  - destruct (C42_send_partial _ _ _ (S (all_atts s))) as (q & phi & E & R). rewrite E. cbn [bind]. destruct (R []) as (m & a2 & E2 & MC). rewrite app_nil_r in E2. rewrite E2. cbn [bind]. exists m, a2, phi. split; auto.
    split; [destruct MC; constructor; auto|]. split; [apply (mc_sets _ _ _ _ _ _ MC)|apply (mc_atts _ _ _ _ _ _ MC)].
Qed.

Lemma mapM_each : forall A B (g : A -> result B) (Q : nat -> B -> Prop) l, (forall i x, nth_error l i = Some x -> exists y, g x = Ok y /\ Q i y) ->
  exists ys, mapM g l = Ok ys /\ length ys = length l /\ forall i y, nth_error ys i = Some y -> Q i y.
Proof.
  intros A B g Q l. revert Q. induction l as [|x l IH]; intros Q X; cbn [mapM]; [exists []; split; auto; split; auto; intros i y Y; destruct i; discriminate Y|].
  destruct (X 0%nat x eq_refl) as (y & E & Qy). rewrite E. cbn [bind]. destruct (IH (fun i => Q (S i))) as (ys & E' & L & Y); [intros i z Hz; apply (X (S i) z Hz)|]. rewrite E'. cbn [bind]. exists (y :: ys). split; auto. split; [cbn; auto|]. intros [|i] z Hz; [cbn in Hz; inversion Hz; subst; auto|apply Y; auto].
Qed.
Lemma combine_map_fst : forall A B C (l : list A) (r : list (B * C)), combine l (map fst r) = map (fun x => (fst x, fst (snd x))) (combine l r).
Proof. induction l as [|x l IH]; intros [|y r]; cbn; auto. rewrite IH. auto. Qed.

(** ** All ranks *)
Section All.
Variables (s : smesh) (a : amesh) (part : list Z) (num ring : Z).
Hypothesis D : distributable s a part num.
Notation n := (Z.to_nat ring).
Lemma d_cells : cells s <> [].
Proof using D. intro E. pose proof (di_each _ _ _ _ D 0). pose proof (di_num _ _ _ _ D). pose proof (di_len _ _ _ _ D) as L. rewrite E in L. destruct part; [|discriminate L]. apply H. lia. Qed.
Lemma halo_dec : forall s' outs d g, (forall k sub l2g, nth_error outs k = Some (sub, l2g) -> exists a', is_halo s a part (Z.of_nat k) n s' sub a' l2g) -> Z.of_nat (length outs) = num -> In g (skind s d) ->
  forall k, (exists j, j <> k /\ halo s a part j n g) \/ (forall j, j <> k -> ~ halo s a part j n g).
Proof using D.
  intros s' outs d g HO LO Hg k. destruct (dec_some (fun j => j <> k /\ halo s a part j n g) (zrange 0 num)) as [(j & _ & X)|NO]; eauto.
  - intros j Hj. apply zrange_iff in Hj. destruct (Z.eq_dec j k) as [->|N]; [right; tauto|]. destruct (nth_error outs (Z.to_nat j)) as [[sub' l2g']|] eqn:Es; [|apply nth_error_None in Es; lia]. destruct (HO _ _ _ Es) as (a2 & H2). rewrite Z2Nat.id in H2 by lia.
    destruct (in_dec Z.eq_dec g (map l2g' (skind sub' d))) as [IN|NI]; [left; split; auto; apply in_map_iff in IN; apply (ho_onto _ _ _ _ _ _ _ _ _ H2 d g); destruct IN as (x & X1 & X2); eauto|].
    right. intros [_ Hj']. apply NI. destruct (proj1 (ho_onto _ _ _ _ _ _ _ _ _ H2 d g) (conj Hg Hj')) as (q' & Hq' & <-). apply in_map. auto.
  - right. intros j N X. apply (NO j); auto. apply zrange_iff. eapply halo_num; eauto.
Qed.
Lemma bare_halo : forall k s' m a2 o, is_halo s a part k n s' (bare m) a2 o -> is_halo s a part k n s' m a2 o.
Proof using. intros k s' m a2 o []. constructor; auto. Qed.
(** The global IDs: given to all entities, distinct for each kind. *)
Definition ids_ok (s' : smesh) : Prop := forall d p, In p (skind s d) -> 1 <= pi_gid (sm_p s' p) < 2 ^ 31 /\ forall q, In q (skind s d) -> pi_gid (sm_p s' p) = pi_gid (sm_p s' q) -> p = q.
Lemma within_own : forall c, In c (cells s) -> exists k, 0 <= k < num /\ within s a part k n c.
Proof using D.
  intros c Hc. apply In_nth_error in Hc. destruct Hc as [i Ei]. assert (L : (i < length part)%nat) by (rewrite <- (di_len _ _ _ _ D); apply nth_error_Some; congruence). apply nth_error_Some in L. destruct (nth_error part i) as [k|] eqn:Ek; [|congruence].
  exists k. split; [apply (di_range _ _ _ _ D); eapply nth_error_In; eauto|]. generalize n as j. clear - Ei Ek. induction j; cbn [within]; eauto.
Qed.
Lemma some_halo : forall d x, In x (skind s d) -> exists k, 0 <= k < num /\ halo s a part k n x.
Proof using D. intros d x Hx. destruct (di_cell _ _ _ _ D d x Hx) as (c & Hc & Q). destruct (within_own c Hc) as (k & Hk & W). exists k. split; auto. exists c. auto. Qed.
Lemma size_31 : forall d, ZL (skind s d) < 2 ^ 31.
Proof using D. intro d. destruct (skind s d) as [|x l] eqn:E; [unfold ZL; cbn [length]; lia|]. rewrite <- E. destruct (kin s d x) as [-> | [-> | [-> | ->]]]; [rewrite E; left; auto| | | |]; pose proof (di_size _ _ _ _ D) as (S0 & S1 & S2 & S3); unfold ZL in *; lia. Qed.
Lemma gids_good : forall s' outs, (forall g, pi_gid (sm_p s g) <> 0 -> pi_gid (sm_p s' g) = pi_gid (sm_p s g)) -> (forall d, (forall p, In p (skind s d) -> pi_gid (sm_p s p) = 0) -> counted s s' d) ->
  (forall k sub l2g, nth_error outs k = Some (sub, l2g) -> exists a', is_halo s a part (Z.of_nat k) n s' sub a' l2g) -> Z.of_nat (length outs) = num -> ids_ok s'.
Proof using D.
  intros s' outs G1 G2 HO LO d p Hp.
  assert (NZ : forall q, In q (skind s d) -> pi_gid (sm_p s' q) <> 0).
  { intros q Hq. destruct (some_halo d q Hq) as (k & Hk & Hh). destruct (nth_error outs (Z.to_nat k)) as [[sub l2g]|] eqn:Es; [|apply nth_error_None in Es; lia]. destruct (HO _ _ _ Es) as (a' & I). rewrite Z2Nat.id in I by lia.
    destruct (proj1 (ho_onto _ _ _ _ _ _ _ _ _ I d q) (conj Hq Hh)) as (x & Hx & E). destruct (ho_gid _ _ _ _ _ _ _ _ _ I _ _ Hx) as [E1 E2]. rewrite E in E1. congruence. }
  destruct (di_gid _ _ _ _ D d) as [Z0|[R J]].
  - destruct (G2 d Z0) as [C1 (N & C2)]. assert (LN : N <= ZL (skind s d)).
    { destruct (Z.le_gt_cases N (ZL (skind s d))) as [|L]; auto. exfalso. assert (X : (length (zrange 1 (N + 1)) <= length (map (fun q => pi_gid (sm_p s' q)) (skind s d)))%nat).
      { apply NoDup_incl_length; [unfold zrange; apply FinFun.Injective_map_NoDup; [intros x y; lia|apply seq_NoDup]|]. intros i Hi. apply zrange_iff in Hi. destruct (proj2 (C2 i) ltac:(lia)) as (q & Hq & E & _). apply in_map_iff. eauto. }
      unfold zrange in X. rewrite !map_length, seq_length in X. unfold ZL in L. lia. }
    pose proof (size_31 d). assert (1 <= pi_gid (sm_p s' p) <= N) by (apply C2; exists p; auto). split; [lia|]. intros q Hq E. apply C1; auto.
  - assert (EQ : forall q, In q (skind s d) -> pi_gid (sm_p s' q) = pi_gid (sm_p s q)) by (intros q Hq; apply G1; specialize (R q Hq); lia). split; [rewrite EQ by auto; auto|]. intros q Hq E. rewrite !EQ in E by auto. auto.
Qed.

Definition has_atts (k : nat) (m : smesh) : Prop :=
  sm_sets m = [] /\ Forall2 (fun x y => at_name y = at_name x /\ at_type y = at_type x /\ at_ncomp y = at_ncomp x /\ at_ent y = at_ent x /\ forall q, at_val y q = None)
    (if (k =? 0)%nat then filter (fun a => negb (text_eqb (at_name a) (str "copyatt"))) (all_atts s) else []) (satts m).
Lemma distribute_ok : exists s' ms (O : nat -> ptr -> ptr), distribute s num ring part = Ok (s', ms) /\ Z.of_nat (length ms) = num /\ sm_m s' = sm_m s /\ ids_ok s' /\
  forall k m, nth_error ms k = Some m -> (exists a', is_halo s a part (Z.of_nat k) n s' m a' (O k)) /\ flagged s a part (Z.of_nat k) m (O k) /\ typed s a part (Z.of_nat k) n m (O k) /\ has_atts k m.
Proof using D.
  pose proof (di_mesh _ _ _ _ D) as P. pose proof (di_num _ _ _ _ D) as HN. destruct (C49_ghosts s a part num ring P (di_master _ _ _ _ D) d_cells (di_len _ _ _ _ D) (di_range _ _ _ _ D) ltac:(lia) (fun _ => di_each _ _ _ _ D)) as (s' & g2l & outs & E & Em & LO & HO & _).
  assert (ID : ids_ok s').
  { destruct (C46_partition s a part num P (di_master _ _ _ _ D) d_cells ltac:(rewrite (di_len _ _ _ _ D); auto) ltac:(lia)) as (s1 & g1 & subs & E1 & _ & _ & _ & _ & _ & _ & _ & G1 & G2). assert (s1 = s').
    { unfold partition_with_ghosts in E. rewrite E1 in E. cbn [bind] in E. destruct (foldM _ _ _) as [[? ?]| | |]; cbn [bind] in E; inversion E; auto. }
    subst s1. apply (gids_good s' outs); auto. intros k sub l2g X. apply HO in X. tauto. }
  unfold distribute. rewrite E. cbn [bind].
  assert (LC : length (combine (zrange 0 num) (map fst outs)) = Z.to_nat num) by (rewrite combine_length, map_length; unfold zrange; rewrite map_length, seq_length; lia).
  edestruct (mapM_each _ _ (deliver s) (fun k m => exists o, (exists a', is_halo s a part (Z.of_nat k) n s' m a' o) /\ flagged s a part (Z.of_nat k) m o /\ typed s a part (Z.of_nat k) n m o /\ has_atts k m)) with (l := combine (zrange 0 num) (map fst outs)) as (ms & EM & LM & Q).
  2: { rewrite EM. cbn [bind]. assert (CH : exists O : nat -> ptr -> ptr, forall k m, nth_error ms k = Some m -> (exists a', is_halo s a part (Z.of_nat k) n s' m a' (O k)) /\ flagged s a part (Z.of_nat k) m (O k) /\ typed s a part (Z.of_nat k) n m (O k) /\ has_atts k m).
    { clear - Q. assert (X : forall l b, (forall i m, nth_error l i = Some m -> exists o, (exists a', is_halo s a part (Z.of_nat (b + i)) n s' m a' o) /\ flagged s a part (Z.of_nat (b + i)) m o /\ typed s a part (Z.of_nat (b + i)) n m o /\ has_atts (b + i) m) ->
        exists O : nat -> ptr -> ptr, forall i m, nth_error l i = Some m -> (exists a', is_halo s a part (Z.of_nat (b + i)) n s' m a' (O i)) /\ flagged s a part (Z.of_nat (b + i)) m (O i) /\ typed s a part (Z.of_nat (b + i)) n m (O i) /\ has_atts (b + i) m).
      { induction l as [|x l IH]; intros b X; [exists (fun _ p => p); intros i m Y; destruct i; discriminate Y|]. destruct (X 0%nat x eq_refl) as (o & Ho). destruct (IH (S b)) as (O & HO). { intros i m Y. specialize (X (S i) m Y). rewrite Nat.add_succ_r in X. exact X. }
        exists (fun i => match i with 0%nat => o | S i => O i end). intros [|i] m Y; [cbn in Y; inversion Y; subst; auto|]. specialize (HO i m Y). rewrite Nat.add_succ_r. exact HO. }
      apply (X ms 0%nat). exact Q. }
    destruct CH as (O & CH). exists s', ms, O. split; auto. split; [lia|]. auto. }
  intros i x Hx. rewrite combine_map_fst, nth_error_map in Hx. destruct (nth_error (combine (zrange 0 num) outs) i) as [w|] eqn:EW; [|discriminate Hx]. cbn in Hx. inversion Hx. subst x. clear Hx.
  replace num with (Z.of_nat (length outs)) in EW by lia. apply combine_nth in EW. destruct w as [k [sub l2g]]. cbn [fst snd] in *. destruct EW as [-> Es].
  destruct (HO _ _ _ Es) as ((a' & I) & F & T). specialize (T (di_cell _ _ _ _ D)). assert (Li : (i < length outs)%nat) by (apply nth_error_Some; congruence).
  assert (DEC : forall d q, In q (skind sub d) -> (exists j, j <> Z.of_nat i /\ halo s a part j n (l2g q)) \/ (forall j, j <> Z.of_nat i -> ~ halo s a part j n (l2g q))).
  { intros d q Hq. apply (halo_dec s' outs d); auto; [intros k s2 l2 X; apply HO in X; tauto|]. apply (ho_onto _ _ _ _ _ _ _ _ _ I). eauto. }
  destruct (deliver_ok s (Z.of_nat i) sub a' (di_atts _ _ _ _ D)) as (m & a2 & phi & EM & MC & SE & AT).
  { intro atts. apply (sub_sendable s a part num (Z.of_nat i) n s' sub a' l2g); auto. lia. }
  exists m. split; auto. assert (I' : is_halo s a part (Z.of_nat i) n s' (dressed sub []) a' l2g) by (destruct I; constructor; auto).
  exists (back (dressed sub []) l2g phi). split; [exists a2; apply bare_halo; apply (copied_halo _ _ _ _ _ _ _ _ _ I' _ _ _ MC)|]. split; [exact (copied_flagged _ _ _ _ _ _ _ _ _ P I' _ _ _ MC F)|]. split; [exact (copied_typed _ _ _ _ _ _ _ _ _ _ _ MC T)|].
  split; auto. destruct (Nat.eqb_spec i 0) as [->|Ni].
  - change (Z.of_nat 0 =? 0) with true in AT. cbv iota in AT. change (cloned_atts (dressed sub (all_atts s))) with (filter (fun a => negb (text_eqb (at_name a) (str "copyatt"))) (all_atts s)) in AT.
    assert (NV : forall x, In x (filter (fun a => negb (text_eqb (at_name a) (str "copyatt"))) (all_atts s)) -> forall q, at_val x q = None).
    { intros x Hx q. apply filter_In in Hx. destruct Hx as [[<-|Hx] _]; [reflexivity|]. apply in_map_iff in Hx. destruct Hx as (y & <- & _). reflexivity. }
    clear - AT NV. induction AT as [|x y l l' A _ IH]; constructor; [|apply IH; intros z Hz; apply NV; right; auto]. destruct A. repeat split; auto. intro q. specialize (NV x (or_introl eq_refl)).
    assert (C : at_type x = TPOINTER \/ at_type x <> TPOINTER) by (destruct (at_type x); auto; right; discriminate). destruct C as [C|C]; [apply ac_no; intros; contradiction|].
    destruct (in_dec Z.eq_dec q (flat_map (fun d => if (at_ent x =? d) || (at_ent x =? MALLTYPE) then map (phi d) (skind (dressed sub (all_atts s)) d) else []) [0; 1; 2; 3])) as [IN|NI].
    + apply in_flat_map in IN. destruct IN as (d & _ & IN). destruct ((at_ent x =? d) || (at_ent x =? MALLTYPE)) eqn:LV; [|destruct IN]. apply in_map_iff in IN. destruct IN as (p & <- & Hp). rewrite (ac_val d p); auto; [rewrite NV; auto|]. unfold lives_on. lia.
    + apply ac_no. intros d p LV Hp _ Eq. apply NI. apply in_flat_map. exists d. split; [destruct (kin _ _ _ Hp) as [-> | [-> | [-> | ->]]]; cbn; auto|]. unfold lives_on in LV. replace ((at_ent x =? d) || (at_ent x =? MALLTYPE)) with true by (symmetry; apply orb_true_iff; rewrite !Z.eqb_eq; auto). rewrite <- Eq. apply in_map. auto.
  - replace (Z.of_nat i =? 0) with false in AT by lia. rewrite AT. constructor.
Qed.
End All.
