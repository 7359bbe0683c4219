(** C48: copying attributes and sets to the parts of a mesh (MESH_CopyAttr.c, MESH_CopySet.c). *)
From Coq Require Import ZArith Bool Floats.SpecFloat String List Lia Arith ZifyBool ZifyNat.
From Verif Require Import Base BaseProofs ListSpec AttModel TopoModel TopoSpec TopoProofs TopoProps CheckProps ParModel FileModel FileSpec FileProofs4 SendModel SendSpec SendProofs4 GidProofs2 PartModel PartSpec PartProofs3 PartProps CopyModel CopySpec CopyProofs CopyProofs2 CopyProofs3.
Import ListNotations.
Open Scope Z_scope.

(** One attribute, to submeshes that may have values of it. *)
Theorem C48_attr : forall s subs g2l a bs li j, linked g2l subs -> copyable s subs a -> at_type a <> TPOINTER -> length bs = length subs ->
  Forall2 (fun sb i => first_at at_name (fm_atts (sm_m sb)) (at_name a) i /\ exists la, nth_error (fm_atts (sm_m sb)) i = Some la /\ at_type la = at_type a /\ at_ncomp la = at_ncomp a) bs li ->
  nth_error (fm_atts (sm_m s)) j = Some a -> first_at at_name (fm_atts (sm_m s)) (at_name a) j ->
  exists bs', MESH_CopyAttr s g2l (Z.of_nat (length subs)) bs (at_name a) = Ok (1, bs') /\ length bs' = length subs /\
    forall k b i, nth_error bs k = Some b -> nth_error li k = Some i -> exists b' la la', nth_error bs' k = Some b' /\ nth_error (fm_atts (sm_m b)) i = Some la /\ nth_error (fm_atts (sm_m b')) i = Some la' /\ same_but_att i b b' /\ carried s subs k a la la'.
Proof. intros s subs g2l a bs li j LK CA NP LB HB Ej Fj. exact (attr_ok s subs g2l a bs li LK CA NP LB HB j Ej Fj). Qed.
Print Assumptions C48_attr.

(** One set, to submeshes that may have a set of that name. *)
Theorem C48_set : forall subs g2l x bs, linked g2l subs -> length bs = length subs -> (length (ms_name x) <= 255)%nat ->
  (forall b y, In b bs -> In y (sm_sets b) -> (length (ms_name y) <= 255)%nat) -> (forall g, In g (ms_list x) -> exists k l, copy_in subs k l g) ->
  exists bs', MESH_CopySet g2l (Z.of_nat (length subs)) bs x = Ok bs' /\ length bs' = length subs /\
    forall k b, nth_error bs k = Some b -> exists b' ls, nth_error bs' k = Some b' /\ picked subs k (ms_list x) ls /\ same_but_sets b b' /\
      ((exists i y, first_at ms_name (sm_sets b) (ms_name x) i /\ nth_error (sm_sets b) i = Some y /\ sm_sets b' = upd_nth (sm_sets b) i (mkSet (ms_name y) (ms_ent y) (ms_list y ++ ls))) \/
       ((forall y, In y (sm_sets b) -> ms_name y <> ms_name x) /\ sm_sets b' = sm_sets b ++ [mkSet (ms_name x) (ms_ent x) ls])).
Proof. intros subs g2l x bs LK LB SN SB CP. exact (set_ok subs g2l x bs LK LB SN SB CP). Qed.
Print Assumptions C48_set.

(** ** All attributes and sets of a mesh that is partitioned *)
(** Attributes that can be copied: values of their type; vectors of two or more components with
    values on all entities that are in a part. *)
Record carryable (s : smesh) (a : amesh) (part : list Z) (num : Z) (x : attr) : Prop := mkCarryable {
  cy_name : (length (at_name x) <= 255)%nat;
  cy_vals : at_type x <> TPOINTER -> forall p v, at_val x p = Some v ->
    match at_type x, v with TINT, AInt _ => True | TDOUBLE, ADbl _ => True | TVECTOR, AVec l | TTENSOR, AVec l => Z.of_nat (length l) = at_ncomp x | _, _ => False end;
  cy_comp : match at_type x with TVECTOR | TTENSOR => 2 <= at_ncomp x | _ => at_ncomp x = 1 end;
  cy_full : (at_type x = TVECTOR \/ at_type x = TTENSOR) -> forall d g k, suits x d -> In g (skind s d) -> 0 <= k < num -> inpart s a part k g -> at_val x g <> None }.
(** Sets that can be copied: every entry is in a part. *)
Definition gatherable (s : smesh) (a : amesh) (part : list Z) (num : Z) (x : mset) : Prop :=
  (length (ms_name x) <= 255)%nat /\ forall g, In g (ms_list x) -> exists d k, In g (skind s d) /\ 0 <= k < num /\ inpart s a part k g.

Theorem C48_partition : forall s a part num, partable s a -> unparted s -> cells s <> [] -> (length (cells s) <= length part)%nat -> 0 <= num < 2 ^ 29 ->
  (forall x, In x (fm_atts (sm_m s)) -> carryable s a part num x) -> NoDup (map at_name (fm_atts (sm_m s))) ->
  (forall x, In x (sm_sets s) -> gatherable s a part num x) -> NoDup (map ms_name (sm_sets s)) ->
  exists s' g2l subs b1 b2 b3, MESH_Partition s num part = Ok (s', g2l, subs) /\ new_atts s' (map fst subs) = Ok b1 /\ copy_atts s' g2l num b1 = Ok b2 /\ copy_sets s' g2l num b2 = Ok b3 /\
    Z.of_nat (length b3) = num /\
    forall k sub l2g, nth_error subs k = Some (sub, l2g) -> exists b, nth_error b3 k = Some b /\
      (exists l, sm_m b = mkFM (fm_t (sm_m sub)) (fm_c (sm_m sub)) (fm_x (sm_m sub)) (fm_id (sm_m sub)) (fm_v (sm_m sub)) (fm_e (sm_m sub)) (fm_f (sm_m sub)) (fm_r (sm_m sub)) l) /\ sm_p b = sm_p sub /\
      Forall2 (is_copy s subs k) (fm_atts (sm_m s)) (fm_atts (sm_m b)) /\
      Forall2 (fun x lx => ms_name lx = ms_name x /\ ms_ent lx = ms_ent x /\ picked subs k (ms_list x) (ms_list lx)) (sm_sets s) (sm_sets b).
Proof.
  intros s a part num P U NE HL HN HA NDA HS NDS. destruct (C46_partition s a part num P U NE HL HN) as (s' & g2l & subs & E & Em & _ & Ln & PA & LI & ND & _). destruct (partition_bare _ _ _ _ _ _ E) as [Es Eb].
  assert (LK : linked g2l subs) by (constructor; auto).
  assert (KD : forall d, skind s' d = skind s d) by (intro d; unfold skind; rewrite Em; auto).
  assert (IP : forall k l g, copy_in subs k l g -> 0 <= Z.of_nat k < num /\ inpart s a part (Z.of_nat k) g).
  { intros k l g (sub & f & d & E1 & I & Q). destruct (PA k sub f E1) as (a' & Hp). assert (k < length subs)%nat by (apply nth_error_Some; congruence). split; [lia|]. apply (proj2 (po_onto _ _ _ _ _ _ _ _ Hp d g)). exists l. auto. }
  assert (SA : forall x, In x (fm_atts (sm_m s')) -> sound_att s' subs x).
  { rewrite Em. intros x I. pose proof (HA x I) as C. split; [apply (cy_name _ _ _ _ _ C)|]. split.
    - intro T. constructor; [apply (cy_name _ _ _ _ _ C)|apply (cy_vals _ _ _ _ _ C T)|apply (cy_comp _ _ _ _ _ C)|]. intros T2 d g k l su Ig Cg. rewrite KD in Ig. destruct (IP k l g Cg). eapply (cy_full _ _ _ _ _ C); eauto.
    - intro T. pose proof (cy_comp _ _ _ _ _ C) as CC. rewrite T in CC. auto. }
  assert (NDA' : NoDup (map at_name (fm_atts (sm_m s')))) by (rewrite Em; auto).
  assert (NA : forall b f, In (b, f) subs -> fm_atts (sm_m b) = []) by (intros b f I; apply (Eb b f I)).
  destruct (start_done s' subs SA NA) as (b1 & E1 & D1). destruct (copies_done s' subs g2l LK SA NDA' NA b1 D1) as (b2 & E2 & L2 & D2).
  assert (SN : forall x, In x (sm_sets s') -> (length (ms_name x) <= 255)%nat) by (rewrite Es; intros x I; apply (HS x I)).
  assert (CP : forall x g, In x (sm_sets s') -> In g (ms_list x) -> exists k l, copy_in subs k l g).
  { rewrite Es. intros x g I Ig. destruct (HS x I) as [_ H]. destruct (H g Ig) as (d & k & Id & Bk & Ip). assert (Hk : (Z.to_nat k < length subs)%nat) by lia. destruct (nth_error subs (Z.to_nat k)) as [[sub f]|] eqn:Ek; [|apply nth_error_None in Ek; lia]. destruct (PA _ _ _ Ek) as (a' & Hp). rewrite Z2Nat.id in Hp by lia. destruct (proj1 (po_onto _ _ _ _ _ _ _ _ Hp d g) (conj Id Ip)) as (q & Iq & Q). exists (Z.to_nat k), q, sub, f, d. auto. }
  assert (NDS' : NoDup (map ms_name (sm_sets s'))) by (rewrite Es; auto).
  destruct (sets_ok s' subs g2l LK SN CP NDS' b2 L2) as (b3 & E3 & L3 & D3).
  { intros b I. apply In_nth_error in I as [k Ek]. assert (Hk : (k < length subs)%nat) by (rewrite <- L2; apply nth_error_Some; congruence). destruct (nth_error subs k) as [[sub f]|] eqn:Es'; [|apply nth_error_None in Es'; lia]. destruct (D2 k sub f Es') as (b' & B1 & (_ & B2 & _) & _). rewrite Ek in B1. inversion B1. subst b'. rewrite B2. apply (Eb sub f). eapply nth_error_In; eauto. }
  rewrite Ln in E2, E3. exists s', g2l, subs, b1, b2, b3. split; [auto|]. split; [auto|]. split; [auto|]. split; [auto|]. split; [lia|].
  intros k sub f Ek. destruct (D2 k sub f Ek) as (b & B1 & (B2 & B2' & lb & B3) & B4 & B5). destruct (D3 k b B1) as (b' & F1 & (F2 & F2') & F3). exists b'. split; [auto|]. split; [exists lb; congruence|]. split; [congruence|]. rewrite F2. split.
  - rewrite Em in B4. assert (BB : forall j x la, nth_error (fm_atts (sm_m s)) j = Some x -> nth_error (fm_atts (sm_m b)) j = Some la -> is_copy s subs k x la).
    { intros j x la Ex El. rewrite <- Em in Ex. destruct (B5 j x la Ex El) as [_ B6]. assert (Hj : (j < length (fm_atts (sm_m s')))%nat) by (apply nth_error_Some; congruence). apply Nat.ltb_lt in Hj. rewrite Hj in B6. destruct B6 as [C1 C2]. split; [auto|]. intros q v. rewrite C2. split; intros (T & d & g & H); (split; [auto|]); exists d, g; [rewrite <- KD|rewrite KD]; auto. }
    clear -BB B4. revert BB B4. generalize (fm_atts (sm_m s)) (fm_atts (sm_m b)). induction l as [|x l IH]; intros [|y m] BB L; try discriminate L; constructor. + apply (BB O); auto. + apply IH; [intros j; apply (BB (S j))|cbn in L; lia].
  - rewrite <- Es. exact F3.
Qed.
Print Assumptions C48_partition.

(** ** The strip of three triangles with attributes and sets *)
Definition f_of (p : Z) : spec_float := S754_finite false (Z.to_pos p) 0.
Definition weight : attr := mkAttr (str "weight") TINT 1 MVERTEX (fun p => if p <=? 5 then Some (AInt (p - 2)) else None).
Definition flux : attr := mkAttr (str "flux") TVECTOR 2 MFACE (fun p => if 13 <=? p then Some (AVec [f_of p; S754_zero true]) else None).
Definition owner_att : attr := mkAttr (str "owner") TPOINTER 1 MALLTYPE (fun _ => None).
Definition rim : mset := mkSet (str "rim") MVERTEX [5; 2; 3].
Definition cut : mset := mkSet (str "cut") MEDGE [7; 9].
Definition rich (atts : list attr) (sets : list mset) : smesh :=
  mkSM (mkFM (tget strip) (fun p => (p mod 4, p)) xyz (fun p => p) [1; 2; 3; 4; 5] (zrange 6 13) [13; 14; 15] [] atts) clean sets.
Lemma rich_ok : forall atts sets, partable (rich atts sets) (arun amesh0 strip).
Proof. intros atts sets. apply partableb_ok; [apply (reach_tget strip); vm_compute; reflexivity|vm_compute; reflexivity]. Qed.
Lemma rich_clean : forall atts sets, unparted (rich atts sets).
Proof. intros. apply unpartedb_ok. vm_compute. reflexivity. Qed.
(** What the parts have: values of the attributes, entries of the sets. *)
Definition seen (b : smesh) : list (list (option attval)) * list (list ptr) :=
  (map (fun x => map (at_val x) (skind b (if at_ent x =? MALLTYPE then 0 else at_ent x))) (fm_atts (sm_m b)), map ms_list (sm_sets b)).
Definition whole (s : smesh) (num : Z) (part : list Z) : result (list smesh) :=
  ' (s', g2l, subs) <- MESH_Partition s num part ;;
  b <- new_atts s' (map fst subs) ;; b <- copy_atts s' g2l num b ;; copy_sets s' g2l num b.
Lemma in_cell : forall s a part k i g, nth_error (cells s) i = Some g -> nth_error part i = Some k -> inpart s a part k g.
Proof. intros. eapply ip_cell; eauto. Qed.
Example C48_partition_ex : let s := rich [weight; flux; owner_att] [rim; cut] in
  partable s (arun amesh0 strip) /\ unparted s /\ (forall x, In x (fm_atts (sm_m s)) -> carryable s (arun amesh0 strip) [0; 1; 0] 2 x) /\ NoDup (map at_name (fm_atts (sm_m s))) /\
  (forall x, In x (sm_sets s) -> gatherable s (arun amesh0 strip) [0; 1; 0] 2 x) /\ NoDup (map ms_name (sm_sets s)) /\
  match whole s 2 [0; 1; 0] with
  | Ok [b0; b1] => seen b0 = ([[Some (AInt (-1)); None; Some (AInt 1); Some (AInt 2); Some (AInt 3)]; [Some (AVec [f_of 13; S754_zero true]); Some (AVec [f_of 15; S754_zero true])]; [None; None; None; None; None]], [[10; 3; 5]; [4]]) /\
      seen b1 = ([[None; Some (AInt 2); Some (AInt 1)]; [Some (AVec [f_of 14; S754_zero true])]; [None; None; None]], [[2; 5]; [6; 1]])
  | _ => False
  end.
Proof.
  intro s. split; [apply rich_ok|]. split; [apply rich_clean|]. split.
  { intros x [<-|[<-|[<-|[]]]]; constructor; try (vm_compute; auto; lia); try (intros [T|T]; discriminate T).
    - intros _ p v. cbn [at_val weight]. destruct (p <=? 5); [|discriminate]. intro H. inversion H. exact I.
    - intros _ p v. cbn [at_val flux]. destruct (13 <=? p); [|discriminate]. intro H. inversion H. reflexivity.
    - cbn [flux at_type at_ncomp]. lia.
    - intros _ d g k su Ig _ _. destruct su as [su|su]; [|discriminate su]. cbn in su. subst d. cbn in Ig. cbn [at_val flux]. replace (13 <=? g) with true by (intuition lia). discriminate.
    }
  split. { cbn [map fm_atts sm_m s rich at_name weight flux owner_att]. repeat constructor; cbn; intuition discriminate. }
  split.
  { assert (F0 : inpart s (arun amesh0 strip) [0; 1; 0] 0 13) by (apply (in_cell _ _ _ _ 0%nat); reflexivity). assert (F1 : inpart s (arun amesh0 strip) [0; 1; 0] 1 14) by (apply (in_cell _ _ _ _ 1%nat); reflexivity). assert (F2 : inpart s (arun amesh0 strip) [0; 1; 0] 0 15) by (apply (in_cell _ _ _ _ 2%nat); reflexivity).
    assert (ED : forall f e k l, inpart s (arun amesh0 strip) [0; 1; 0] k f -> a_f (arun amesh0 strip) f = Some (true, Some l) -> existsb (fun x => fst x =? e) l = true -> inpart s (arun amesh0 strip) [0; 1; 0] k e).
    { intros f e k l Hf El Hx. apply existsb_exists in Hx as ([e' d] & I & Q). cbn in Q. apply Z.eqb_eq in Q. subst e'. eapply ip_edge; [exact Hf|]. exists l. split; [auto|]. apply (in_map fst) in I. exact I. }
    assert (E7 : inpart s (arun amesh0 strip) [0; 1; 0] 0 7) by (eapply ED; [exact F0|vm_compute; reflexivity|vm_compute; reflexivity]).
    assert (E9 : inpart s (arun amesh0 strip) [0; 1; 0] 1 9) by (eapply ED; [exact F1|vm_compute; reflexivity|vm_compute; reflexivity]).
    assert (E12 : inpart s (arun amesh0 strip) [0; 1; 0] 0 12) by (eapply ED; [exact F2|vm_compute; reflexivity|vm_compute; reflexivity]).
    assert (VE : forall e v k p q, inpart s (arun amesh0 strip) [0; 1; 0] k e -> a_e (arun amesh0 strip) e = Some (true, (p, q)) -> p = v \/ q = v -> inpart s (arun amesh0 strip) [0; 1; 0] k v) by (intros e v k p q He Ee Hv; eapply ip_vertex; [exact He|]; exists p, q; auto).
    intros x [<-|[<-|[]]]; (split; [vm_compute; lia|]); intros g Ig; cbn in Ig.
    - destruct Ig as [<-|[<-|[<-|[]]]]; exists 0; [exists 0|exists 0|exists 0]; (split; [cbn; auto 6|]); (split; [lia|]).
      + eapply VE; [exact E12|vm_compute; reflexivity|auto]. + eapply VE; [exact E7|vm_compute; reflexivity|auto]. + eapply VE; [exact E7|vm_compute; reflexivity|auto].
    - destruct Ig as [<-|[<-|[]]]; exists 1; [exists 0|exists 1]; (split; [vm_compute; auto 10|]); (split; [lia|auto]). }
  split. { cbn [map sm_sets s rich ms_name rim cut]. repeat constructor; cbn; intuition discriminate. }
  vm_compute. auto.
Qed.
(** Submeshes where "weight" has other values, and is not the first attribute in one of them: values
    that are null in the mesh do not replace them; the set "rim" of part 0 has an entry. *)
Example C48_again_ex : match MESH_Partition (rich [weight] [rim]) 2 [0; 1; 0] with
  | Ok (s', g2l, [(p0, f0); (p1, f1)]) =>
      let old := mkAttr (str "weight") TINT 1 MVERTEX (fun _ => Some (AInt 7)) in
      match MESH_CopyAttr s' g2l 2 [set_atts p0 [old]; set_atts p1 [flux; old]] (str "weight") with
      | Ok (1, [b0; b1]) => fst (seen b0) = [[Some (AInt (-1)); Some (AInt 7); Some (AInt 1); Some (AInt 2); Some (AInt 3)]] /\ nth 1 (fst (seen b1)) [] = [Some (AInt 7); Some (AInt 2); Some (AInt 1)]
      | _ => False
      end /\
      match MESH_CopySet g2l 2 [set_sets p0 [cut; mkSet (str "rim") MVERTEX [1]]; p1] rim with
      | Ok [b0; b1] => snd (seen b0) = [[7; 9]; [1; 10; 3; 5]] /\ snd (seen b1) = [[2; 5]]
      | _ => False
      end
  | _ => False
  end.
Proof. vm_compute. auto. Qed.

(** ** What goes wrong *)
(** A vector attribute without a value on some vertex: memcpy copies from NULL. *)
Definition force : attr := mkAttr (str "force") TVECTOR 2 MVERTEX (fun p => if p <=? 4 then Some (AVec [f_of p; f_of p]) else None).
Theorem C48_novalue_refuted : exists s a part num x s' g2l subs b1, partable s a /\ unparted s /\ fm_atts (sm_m s) = [x] /\ at_type x = TVECTOR /\ at_ncomp x = 2 /\
  (forall p v, at_val x p = Some v -> exists c d, v = AVec [c; d]) /\
  MESH_Partition s num part = Ok (s', g2l, subs) /\ new_atts s' (map fst subs) = Ok b1 /\ copy_atts s' g2l num b1 = Undef.
Proof.
  assert (H : match MESH_Partition (rich [force] []) 2 [0; 1; 0] with Ok (s', g2l, subs) => match new_atts s' (map fst subs) with Ok b1 => match copy_atts s' g2l 2 b1 with Undef => true | _ => false end | _ => false end | _ => false end = true) by (vm_compute; reflexivity).
  destruct (MESH_Partition (rich [force] []) 2 [0; 1; 0]) as [[[s' g2l] subs]| | |] eqn:E; try discriminate H. destruct (new_atts s' (map fst subs)) as [b1| | |] eqn:E1; try discriminate H. destruct (copy_atts s' g2l 2 b1) eqn:E2; try discriminate H.
  exists (rich [force] []), (arun amesh0 strip), [0; 1; 0], 2, force, s', g2l, subs, b1. split; [apply rich_ok|]. split; [apply rich_clean|]. split; [reflexivity|]. split; [reflexivity|]. split; [reflexivity|]. split.
  - intros p v. cbn [force at_val]. destruct (p <=? 4); [|discriminate]. intro Q. inversion Q. eauto.
  - auto.
Qed.
(** A vector attribute of one component: MAttrib_New is called without the number of components. *)
Definition slim : attr := mkAttr (str "slim") TVECTOR 1 MVERTEX (fun p => Some (AVec [f_of p])).
Theorem C48_vector1_refuted : exists s a part num x s' g2l subs, partable s a /\ unparted s /\ fm_atts (sm_m s) = [x] /\ at_type x = TVECTOR /\ at_ncomp x = 1 /\
  (forall p, exists c, at_val x p = Some (AVec [c])) /\ MESH_Partition s num part = Ok (s', g2l, subs) /\ new_atts s' (map fst subs) = Undef.
Proof.
  assert (H : match MESH_Partition (rich [slim] []) 2 [0; 1; 0] with Ok (s', g2l, subs) => match new_atts s' (map fst subs) with Undef => true | _ => false end | _ => false end = true) by (vm_compute; reflexivity).
  destruct (MESH_Partition (rich [slim] []) 2 [0; 1; 0]) as [[[s' g2l] subs]| | |] eqn:E; try discriminate H. destruct (new_atts s' (map fst subs)) as [b1| | |] eqn:E1; try discriminate H.
  exists (rich [slim] []), (arun amesh0 strip), [0; 1; 0], 2, slim, s', g2l, subs. split; [apply rich_ok|]. split; [apply rich_clean|]. split; [reflexivity|]. split; [reflexivity|]. split; [reflexivity|]. split.
  - intros p. exists (f_of p). reflexivity.
  - auto.
Qed.
(** A set with a vertex that is in no cell: the list of its copies is NULL. *)
Definition lone_set : smesh := mkSM (sm_m lone_mesh) clean [mkSet (str "all") MVERTEX [1; 16]].
Theorem C48_unused_refuted : exists s a part num x s' g2l subs, partable s a /\ unparted s /\ (forall i, In i part -> 0 <= i < num) /\ sm_sets s = [x] /\ (forall g, In g (ms_list x) -> In g (skind s 0)) /\
  MESH_Partition s num part = Ok (s', g2l, subs) /\ copy_sets s' g2l num (map fst subs) = Undef.
Proof.
  assert (H : match MESH_Partition lone_set 1 [0; 0; 0] with Ok (s', g2l, subs) => match copy_sets s' g2l 1 (map fst subs) with Undef => true | _ => false end | _ => false end = true) by (vm_compute; reflexivity).
  destruct (MESH_Partition lone_set 1 [0; 0; 0]) as [[[s' g2l] subs]| | |] eqn:E; try discriminate H. destruct (copy_sets s' g2l 1 (map fst subs)) eqn:E2; try discriminate H.
  exists lone_set, (arun amesh0 (strip ++ [TNewV])), [0; 0; 0], 1, (mkSet (str "all") MVERTEX [1; 16]), s', g2l, subs. split. { apply partableb_ok; [apply (reach_tget (strip ++ [TNewV])); vm_compute; reflexivity|vm_compute; reflexivity]. } split; [apply unpartedb_ok; vm_compute; reflexivity|]. split; [cbn; intuition lia|]. split; [reflexivity|]. split; [|auto].
  intros g Ig. cbn in *. intuition auto 10.
Qed.
Print Assumptions C48_novalue_refuted. Print Assumptions C48_vector1_refuted. Print Assumptions C48_unused_refuted.
