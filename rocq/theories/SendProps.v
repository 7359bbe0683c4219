(** C42: sending a mesh to another processor (MESH_SendMesh.c, MESH_RecvMesh.c). *)
From Coq Require Import ZArith Bool Ascii String Floats.SpecFloat List Lia Arith ZifyBool ZifyNat.
From Verif Require Import Base BaseProofs ListSpec AttModel AttProps TopoModel TopoSpec TopoProofs TopoProofs2 TopoProofs3 TopoProofs5 TopoProofs6 TopoProofs7 TopoProps ModProofs ParModel SortModel FileModel FileSpec FileProofs FileProofs2 FileProofs3 FileProofs4 FileProps SendModel SendSpec SendProofs SendProofs2 SendProofs3 SendProofs4.
Import ListNotations.
Open Scope Z_scope.

(** Full statement: the mesh received is a copy of the mesh sent, for every mesh.
    Missing: meshes without edges or faces, faces with more than 30 edges, IDs with
    gaps, too many regions, vectors without value or with one component, empty sets
    (all refuted below and in SendProps2.v), incomplete meshes, other representations than F1.
    For every other mesh the messages of MESH_SendMesh, followed by any others, make
    MESH_RecvMesh build a copy and take exactly these messages: same entities in the
    same order with the same IDs, global IDs, ends, loops and faces with directions,
    classification, coordinates bit for bit, parallel types, boundary flags (not of
    regions) and owners, attributes and sets. *)
Theorem C42_send_partial : forall s a w, sendable s a w ->
  exists q phi, MESH_SendMesh s w = Ok q /\ forall rest, exists s' a', MESH_RecvMesh w (q ++ rest) = Ok (s', rest) /\ mesh_copy w s s' a a' phi.
Proof. intros s a w P. destruct (send_recv s a w P) as (q & E & H). exists q, (phi (m0 s)). auto. Qed.
Print Assumptions C42_send_partial.

(** ** Two tetrahedra with attributes and sets *)
Definition ids0 (p : ptr) : Z := if p <? 6 then p else if p <? 15 then p - 5 else if p <? 22 then p - 14 else p - 21.
Definition par0 (p : ptr) : pinfo := mkPI (p mod 3) (Z.even p) (p mod 7) (300 - p).
Definition smesh0 (id : ptr -> Z) (l : list attr) (sets : list mset) : smesh :=
  mkSM (mkFM T0 (fun p => (p mod 4, p)) x0 id [1; 2; 3; 4; 5] (zrange 6 15) (zrange 15 22) [22; 23] l) par0 sets.
Lemma sendable0 : forall l sets w, let s := smesh0 ids0 l sets in
  (w = true -> Forall (good_satt s) (sent_atts s) /\ Forall (fun x => short (at_name x)) l /\ NoDup (map at_name (sent_atts s))) ->
  (w = true -> Forall (good_set s) sets /\ Forall (fun x => short (ms_name x)) sets /\ NoDup (map ms_name sets)) -> sendable s A0 w.
Proof.
  intros l sets w s HA HS. pose proof (printable0 x0 [] (Forall_nil _)) as Q.
  assert (K : forall d p, In p (skind s d) -> 1 <= p < 24).
  { intros d p H. destruct (kind_cases _ _ _ H) as [-> | [-> | [-> | ->]]]; vm_compute in H; lia. }
  split; [constructor; unfold s, skind, sm_t, smesh0; cbn [sm_m sm_p sm_sets]|vm_compute; reflexivity].
  - cbn [fm_t]. exact A0_reach.
  - exact (pr_nd _ _ Q).
  - exact (pr_v _ _ Q).
  - exact (pr_e _ _ Q).
  - exact (pr_f _ _ Q).
  - exact (pr_r _ _ Q).
  - intros d k p H. pose proof (nth_error_In _ _ H) as I. pose proof (proj1 (nth_error_Some _ _) (fun N => ltac:(rewrite H in N; discriminate N))) as H0.
    destruct (kind_cases _ _ _ I) as [-> | [-> | [-> | ->]]]; vm_compute in H0; (do 10 (destruct k as [|k]; [vm_compute in H; first [injection H as <-; reflexivity | discriminate H]|])); lia.
  - exact (pr_ends _ _ Q).
  - exact (pr_faces _ _ Q).
  - intros f b H. pose proof (i_w _ _ (reach_inv _ _ A0_reach)) as W. assert (N : a_f A0 f <> None) by (rewrite H; discriminate). pose proof (w_f _ W f N) as B. change (a_next A0) with 24 in B.
    pose proof (small (fun p => match a_f A0 p with Some (true, Some b) => (length b <=? 30)%nat | _ => true end) f B ltac:(vm_compute; reflexivity)) as S0. cbv beta in S0. rewrite H in S0. apply Nat.leb_le. exact S0.
  - exact (pr_regions _ _ Q).
  - exact (pr_class _ _ Q).
  - intros d p H. pose proof (K d p H). cbn [smesh0 sm_p par0 pi_ptype pi_master s]. pose proof (Z.mod_pos_bound p 3 ltac:(lia)). pose proof (Z.mod_pos_bound p 7 ltac:(lia)). lia.
  - vm_compute. repeat split; reflexivity.
  - split; intro H; vm_compute in H; discriminate H.
  - exact HA.
  - exact HS.
  - intros _ _ d p q Hp Hq E. cbn [smesh0 sm_p par0 pi_gid s] in E. lia.
Qed.
Definition satts0 : list attr :=
  [mkAttr (str "mat") TINT 1 MREGION (fun p => if p =? 23 then Some (AInt (-7)) else Some (AInt 0));
   mkAttr (str "ptr") TPOINTER 1 MVERTEX (fun _ => None);
   mkAttr (str "flow rate") TDOUBLE 1 MFACE (fun p => if p =? 16 then Some (ADbl (fl 1 3)) else None);
   mkAttr (str "vel") TVECTOR 2 MEDGE (fun p => Some (AVec [fl p 3; fl 2 1]));
   mkAttr (str "all") TINT 1 MALLTYPE (fun p => if p =? 3 then Some (AInt 5) else None)].
Definition sets0 : list mset := [mkSet (str "top") MFACE [18; 16]; mkSet (str "some") 6 [3; 23; 8; 3]].
Lemma sgood0 : forall id sets, Forall (good_satt (smesh0 id satts0 sets)) (sent_atts (smesh0 id satts0 sets)).
Proof.
  intros id sets. unfold sent_atts. cbn [satts smesh0 sm_m fm_atts satts0 filter at_type]. repeat apply Forall_cons; try apply Forall_nil.
  - constructor; cbn [at_ent at_ncomp at_type at_val]; unfold MREGION; auto; try lia; [intros _; vm_compute; reflexivity|intros p v _ _ H; destruct (p =? 23); inversion H; subst; cbn; lia].
  - constructor; cbn [at_ent at_ncomp at_type at_val]; unfold MFACE; auto; try lia; [intros _; vm_compute; reflexivity|intros p v _ _ H; destruct (p =? 16); inversion H; subst; exact I].
  - constructor; cbn [at_ent at_ncomp at_type at_val]; unfold MEDGE; try lia; [intros _; vm_compute; reflexivity|intros p v _ _ H; inversion H; subst; reflexivity|discriminate].
  - constructor; cbn [at_ent at_ncomp at_type at_val]; unfold MALLTYPE; auto; try lia.
Qed.
Lemma xgood0 : forall id l, Forall (good_set (smesh0 id l sets0)) sets0.
Proof.
  intros id l. repeat apply Forall_cons; try apply Forall_nil.
  - constructor; [discriminate|vm_compute; reflexivity|]. intros p [<- | [<- | []]]; exists 2; vm_compute; tauto.
  - constructor; [discriminate|vm_compute; reflexivity|]. intros p [<- | [<- | [<- | [<- | []]]]]; [exists 0|exists 3|exists 1|exists 0]; vm_compute; tauto.
Qed.
Lemma sendable00 : sendable (smesh0 ids0 satts0 sets0) A0 true.
Proof.
  apply sendable0; intros _.
  - split; [apply sgood0|]. split; [repeat (constructor; [vm_compute; discriminate|]); constructor|]. vm_compute. repeat (constructor; [cbn; intuition discriminate|]). constructor.
  - split; [apply xgood0|]. split; [repeat (constructor; [vm_compute; discriminate|]); constructor|]. vm_compute. repeat (constructor; [cbn; intuition discriminate|]). constructor.
Qed.
(** Both tetrahedra arrive; value -7 is kept, the value 0 is not stored; the set of
    faces has the third and the first face of it. *)
Example C42_send_partial_ex : sendable (smesh0 ids0 satts0 sets0) A0 true /\
  match MESH_SendMesh (smesh0 ids0 satts0 sets0) true with
  | Ok q => length q = 22%nat /\
      match MESH_RecvMesh true (q ++ [MInts [5]]) with
      | Ok (s', rest) => rest = [MInts [5]] /\ skind s' 3 = [22; 23] /\ map at_name (satts s') = map str ["mat"; "flow rate"; "vel"; "all"]%string /\
          map (fun p => at_val (nth 0 (satts s') (mkAttr [] TINT 0 0 (fun _ => None))) p) [22; 23] = [None; Some (AInt (-7))] /\
          map ms_list (sm_sets s') = [[18; 16]; [3; 23; 8; 3]] /\ MR_Faces (sm_t s') 23 = Ok [17; 19; 20; 21] /\ sm_p s' 9 = par0 9 /\ pi_bdry (sm_p s' 22) = false /\ pi_bdry (par0 22) = true
      | _ => False
      end
  | _ => False
  end.
Proof. split; [exact sendable00|]. vm_compute. repeat split; reflexivity. Qed.

(** ** What is lost *)
(** Values of attributes for all types (MALLTYPE) are lost, and the flag of a region
    on a partition boundary, whatever the mesh. *)
Theorem C42_lost_refuted : exists s a, sendable s a true /\ (exists r, In r (skind s 3) /\ pi_bdry (sm_p s r) = true) /\ (exists x p d, In x (satts s) /\ at_name x = str "all" /\ at_ent x = MALLTYPE /\ at_val x p = Some (AInt 5) /\ In p (skind s d)) /\
  exists q s', MESH_SendMesh s true = Ok q /\ MESH_RecvMesh true q = Ok (s', []) /\ (forall r, In r (skind s' 3) -> pi_bdry (sm_p s' r) = false) /\
    (exists x, In x (satts s') /\ at_name x = str "all") /\ forall x p, In x (satts s') -> at_ent x = MALLTYPE -> at_val x p = None.
Proof.
  exists (smesh0 ids0 satts0 sets0), A0. split; [exact sendable00|]. split; [exists 22; split; [vm_compute; tauto|reflexivity]|]. split; [eexists _, 3, 0; split; [right; right; right; right; left; reflexivity|]; repeat split; vm_compute; tauto|].
  destruct (C42_send_partial _ _ _ sendable00) as (q & phi & E & H). destruct (H []) as (s' & a' & E' & C). rewrite app_nil_r in E'. exists q, s'. split; [exact E|]. split; [exact E'|]. split; [|split].
  - intros r Hr. rewrite (mc_kind _ _ _ _ _ _ C) in Hr. apply in_map_iff in Hr. destruct Hr as (p & <- & Hp). rewrite (mc_rpar _ _ _ _ _ _ C) by auto. reflexivity.
  - pose proof (mc_atts _ _ _ _ _ _ C) as F. cbn [sent_atts satts smesh0 sm_m fm_atts satts0 filter at_type] in F.
    inversion F as [|? ? ? ? _ F1]; subst. inversion F1 as [|? ? ? ? _ F2]; subst. inversion F2 as [|? ? ? ? _ F3]; subst. inversion F3 as [|? ya ? ? Q F4]; subst. exists ya. split; [right; right; right; left; reflexivity|]. rewrite (as_name _ _ _ _ Q). reflexivity.
  - intros x p Hx Ex. pose proof (mc_atts _ _ _ _ _ _ C) as F. cbv iota in F. assert (G : exists y, att_sent (smesh0 ids0 satts0 sets0) phi y x).
    { clear - F Hx. revert Hx. induction F as [|y x' l l' Q F IH]; intros []; subst; eauto. }
    destruct G as (y & Q). apply (as_no _ _ _ _ Q). intros p' H1 _. rewrite <- (as_ent _ _ _ _ Q), Ex in H1. unfold MALLTYPE in H1. lia.
Qed.
Print Assumptions C42_lost_refuted.

(** ** Where it fails *)
Definition shared (s : smesh) (w : bool) (Q : result (smesh * list msg) -> bool) : bool := match MESH_SendMesh s w with Ok q => Q (MESH_RecvMesh w q) | _ => false end.
Lemma shared_ok : forall s w Q, shared s w Q = true -> exists q, MESH_SendMesh s w = Ok q /\ Q (MESH_RecvMesh w q) = true.
Proof. intros s w Q H. unfold shared in H. destruct (MESH_SendMesh s w) as [q| | |]; try discriminate. exists q. auto. Qed.
Definition is_undef {A} (r : result A) : bool := match r with Undef => true | _ => false end.
Definition is_fatal {A} (r : result A) : bool := match r with Fatal => true | _ => false end.
Lemma undef_eq : forall A (r : result A), is_undef r = true -> r = Undef.
Proof. intros A [| | |] H; try discriminate H. reflexivity. Qed.
Lemma fatal_eq : forall A (r : result A), is_fatal r = true -> r = Fatal.
Proof. intros A [| | |] H; try discriminate H. reflexivity. Qed.

(** IDs with a gap, as after deleting an entity: the IDs are used as positions.  The
    mesh can be sent once it is renumbered. *)
Theorem C42_gaps_refuted : exists s s0 a q, sendable s0 a false /\ sm_m s = mkFM (sm_t s0) (fm_c (sm_m s0)) (fm_x (sm_m s0)) (fm_id (sm_m s)) (skind s0 0) (skind s0 1) (skind s0 2) (skind s0 3) (satts s0) /\ sm_p s = sm_p s0 /\
  (forall d p p', In p (skind s d) -> In p' (skind s d) -> 1 <= fm_id (sm_m s) p /\ (fm_id (sm_m s) p = fm_id (sm_m s) p' -> p = p')) /\
  MESH_SendMesh s false = Ok q /\ MESH_RecvMesh false q = Undef.
Proof.
  pose (id := fun p => if p <? 6 then p else if p <? 15 then p - 4 else if p <? 22 then p - 14 else p - 21).
  destruct (shared_ok (smesh0 id [] []) false is_undef) as (q & E & Q); [vm_compute; reflexivity|]. exists (smesh0 id [] []), (smesh0 ids0 [] []), A0, q.
  split; [apply sendable0; discriminate|]. split; [unfold smesh0, skind, satts, sm_t, kind; cbn [sm_m fm_t fm_c fm_x fm_id fm_v fm_e fm_f fm_r fm_atts Z.eqb Pos.eqb]; reflexivity|]. split; [reflexivity|]. split; [|split; [exact E|apply undef_eq; exact Q]]. clear E Q.
  intros d p p' Hp Hp'. cbn [smesh0 sm_m fm_id]. unfold id. destruct (kind_cases _ _ _ Hp) as [-> | [-> | [-> | ->]]]; vm_compute in Hp, Hp'; destruct (Z.ltb_spec p 6), (Z.ltb_spec p 15), (Z.ltb_spec p 22), (Z.ltb_spec p' 6), (Z.ltb_spec p' 15), (Z.ltb_spec p' 22); lia.
Qed.
Print Assumptions C42_gaps_refuted.

(** Meshes for the next cases: built by [ops], all entities live and numbered. *)
Definition built (ops : list top) (s : smesh) : Prop := let a := arun amesh0 ops in tallowed amesh0 ops /\ trun empty_topo ops = Ok (sm_t s) /\
  (forall p, In p (skind s 0) <-> live_v a p) /\ (forall p, In p (skind s 1) <-> live_e a p) /\ (forall p, In p (skind s 2) <-> live_f a p) /\ (forall p, In p (skind s 3) <-> live_r a p) /\
  (forall d k p, nth_error (skind s d) k = Some p -> fm_id (sm_m s) p = Z.of_nat k + 1).
Definition topo_of (ops : list top) : topo := match trun empty_topo ops with Ok t => t | _ => empty_topo end.
Definition plain (ops : list top) (nv ne nf : Z) (l : list attr) (sets : list mset) : smesh :=
  mkSM (mkFM (topo_of ops) (fun _ => (4, 0)) (fun _ => (S754_zero false, S754_zero false, S754_zero false)) (fun p => if p <=? nv then p else if p <=? nv + ne then p - nv else p - nv - ne)
             (zrange 1 (nv + 1)) (zrange (nv + 1) (nv + ne + 1)) (zrange (nv + ne + 1) (nv + ne + nf + 1)) [] l) (fun p => mkPI 0 false 0 p) sets.
Definition alive (a : amesh) (p : ptr) : Z :=
  match a_v a p, a_e a p, a_f a p, a_r a p with Some true, None, None, None => 0 | None, Some (true, _), None, None => 1 | None, None, Some (true, _), None => 2 | _, _, _, _ => -1 end.
Lemma in_zr : forall a b i, In i (zrange a b) <-> a <= i < b.
Proof. intros a b i. split; [|apply TopoProofs7.in_zrange]. unfold zrange. rewrite in_map_iff. intros (x & <- & H). apply in_seq in H. lia. Qed.
Lemma plain_ok : forall ops nv ne nf l sets, 0 <= nv -> 0 <= ne -> 0 <= nf -> tallowedb amesh0 ops = true -> a_next (arun amesh0 ops) = nv + ne + nf + 1 ->
  forallb (fun p => alive (arun amesh0 ops) p =? (if p <=? nv then 0 else if p <=? nv + ne then 1 else 2)) (zrange 1 (nv + ne + nf + 1)) = true ->
  built ops (plain ops nv ne nf l sets).
Proof.
  intros ops nv ne nf l sets Hv He Hf T HN HB. pose proof (tallowedb_ok ops empty_topo amesh0 inv0 T) as TA. destruct (trun_ok ops empty_topo amesh0 inv0 TA) as (t & ET & I).
  pose proof (i_w _ _ I) as W.
  assert (B : forall p, 1 <= p < nv + ne + nf + 1 -> alive (arun amesh0 ops) p = (if p <=? nv then 0 else if p <=? nv + ne then 1 else 2)).
  { intros p Hp. rewrite forallb_forall in HB. apply Z.eqb_eq. apply HB. apply in_zr. lia. }
  unfold alive in B. unfold built. split; [exact TA|]. split.
  { unfold plain, sm_t, topo_of. cbn [sm_m fm_t]. rewrite ET. reflexivity. }
  unfold skind, plain, kind. cbn [sm_m fm_v fm_e fm_f fm_r Z.eqb Pos.eqb fm_id].
  split; [|split; [|split; [|split]]].
  - intro p. rewrite in_zr. unfold live_v. split.
    + intro H. specialize (B p ltac:(lia)). replace (p <=? nv) with true in B by lia. destruct (a_v (arun amesh0 ops) p) as [[]|], (a_e (arun amesh0 ops) p) as [[[] ?]|], (a_f (arun amesh0 ops) p) as [[[] ?]|], (a_r (arun amesh0 ops) p); try discriminate B; reflexivity.
    + intro H. pose proof (w_v _ W p ltac:(rewrite H; discriminate)) as R. rewrite HN in R. specialize (B p R). rewrite H in B. destruct (a_e (arun amesh0 ops) p) as [[[] ?]|], (a_f (arun amesh0 ops) p) as [[[] ?]|], (a_r (arun amesh0 ops) p); destruct (p <=? nv) eqn:E1, (p <=? nv + ne) eqn:E2; try discriminate B; lia.
  - intro p. rewrite in_zr. unfold live_e. split.
    + intro H. specialize (B p ltac:(lia)). replace (p <=? nv) with false in B by lia. replace (p <=? nv + ne) with true in B by lia. destruct (a_v (arun amesh0 ops) p) as [[]|], (a_e (arun amesh0 ops) p) as [[[] ?]|], (a_f (arun amesh0 ops) p) as [[[] ?]|], (a_r (arun amesh0 ops) p); try discriminate B; eauto.
    + intros [x H]. pose proof (w_e _ W p ltac:(rewrite H; discriminate)) as R. rewrite HN in R. specialize (B p R). rewrite H in B. destruct (a_v (arun amesh0 ops) p) as [[]|], (a_f (arun amesh0 ops) p) as [[[] ?]|], (a_r (arun amesh0 ops) p); destruct (p <=? nv) eqn:E1, (p <=? nv + ne) eqn:E2; try discriminate B; lia.
  - intro p. rewrite in_zr. unfold live_f. split.
    + intro H. specialize (B p ltac:(lia)). replace (p <=? nv) with false in B by lia. replace (p <=? nv + ne) with false in B by lia. destruct (a_v (arun amesh0 ops) p) as [[]|], (a_e (arun amesh0 ops) p) as [[[] ?]|], (a_f (arun amesh0 ops) p) as [[[] ?]|], (a_r (arun amesh0 ops) p); try discriminate B; eauto.
    + intros [x H]. pose proof (w_f _ W p ltac:(rewrite H; discriminate)) as R. rewrite HN in R. specialize (B p R). rewrite H in B. destruct (a_v (arun amesh0 ops) p) as [[]|], (a_e (arun amesh0 ops) p) as [[[] ?]|], (a_r (arun amesh0 ops) p); destruct (p <=? nv) eqn:E1, (p <=? nv + ne) eqn:E2; try discriminate B; lia.
  - intro p. split; [intros []|]. intros [x H]. pose proof (w_r _ W p ltac:(rewrite H; discriminate)) as R. rewrite HN in R. specialize (B p R). rewrite H in B. destruct (a_v (arun amesh0 ops) p) as [[]|], (a_e (arun amesh0 ops) p) as [[[] ?]|], (a_f (arun amesh0 ops) p) as [[[] ?]|]; destruct (p <=? nv) eqn:E1, (p <=? nv + ne) eqn:E2; try discriminate B; lia.
  - intros d k p H. assert (Z0 : forall a b, nth_error (zrange a b) k = Some p -> p = a + Z.of_nat k /\ a <= p < b).
    { intros a b Q. pose proof (nth_error_In _ _ Q) as I0. apply in_zr in I0. split; [|lia]. pose proof (proj1 (nth_error_Some _ _) (fun N => ltac:(rewrite Q in N; discriminate N))) as K. rewrite zrange_length in K. apply nth_error_nth with (d := 0) in Q. rewrite nth_zrange in Q by lia. lia. }
    destruct (d =? 0); [apply Z0 in H; destruct H; replace (p <=? nv) with true by lia; lia|]. destruct (d =? 1); [apply Z0 in H; destruct H; replace (p <=? nv) with false by lia; replace (p <=? nv + ne) with true by lia; lia|].
    destruct (d =? 2); [apply Z0 in H; destruct H; replace (p <=? nv) with false by lia; replace (p <=? nv + ne) with false by lia; lia|]. destruct (d =? 3); destruct k; discriminate H.
Qed.

(** The sender always sends a message with the faces, the receiver asks for it only
    if there are faces.  Two vertices and an edge: with attributes, the receiver takes
    the empty message with the faces for the number of attributes; without, that
    message is left over for the next receiver. *)
Definition wire : list top := [TNewV; TNewV; TNewE; TSetVertex 3 false 1; TSetVertex 3 true 2].
Theorem C42_wire_refuted : exists ops s q q', built ops s /\ skind s 1 <> [] /\ satts s = [] /\ sm_sets s = [] /\
  MESH_SendMesh s true = Ok q /\ MESH_RecvMesh true q = Undef /\
  MESH_SendMesh s false = Ok q' /\ exists s' m, MESH_RecvMesh false q' = Ok (s', [m]).
Proof.
  destruct (shared_ok (plain wire 2 1 0 [] []) true is_undef) as (q & E & Q); [vm_compute; reflexivity|].
  destruct (shared_ok (plain wire 2 1 0 [] []) false (fun r => match r with Ok (_, [_]) => true | _ => false end)) as (q' & E' & Q'); [vm_compute; reflexivity|].
  exists wire, (plain wire 2 1 0 [] []), q, q'. split; [apply plain_ok; try lia; vm_compute; reflexivity|]. split; [intro N; vm_compute in N; discriminate N|]. split; [reflexivity|]. split; [reflexivity|]. split; [exact E|]. split; [apply undef_eq; exact Q|]. split; [exact E'|].
  destruct (MESH_RecvMesh false q') as [[s' l]| | |]; try discriminate Q'. destruct l as [|m [|]]; try discriminate Q'. exists s', m. reflexivity.
Qed.
Print Assumptions C42_wire_refuted.

(** A face may have up to 32 edges, the buffers are for 30.  One face with 31 edges:
    the message is too long.  With a triangle beside it there is room in the message,
    and an array of the receiver is overrun. *)
Definition ring (n : Z) : list top :=
  repeat TNewV (Z.to_nat n) ++ repeat TNewE (Z.to_nat n) ++ flat_map (fun i => [TSetVertex (n + i) false i; TSetVertex (n + i) true (if i =? n then 1 else i + 1)]) (zrange 1 (n + 1)).
Definition polygon (n : Z) : list top := ring n ++ [TNewF; TSetEdges (2 * n + 1) (map (fun e => (e, true)) (zrange (n + 1) (2 * n + 1)))].
Definition polygon3 (n : Z) : list top :=
  repeat TNewV (Z.to_nat n) ++ repeat TNewE (Z.to_nat (n + 1)) ++ flat_map (fun i => [TSetVertex (n + i) false i; TSetVertex (n + i) true (if i =? n then 1 else i + 1)]) (zrange 1 (n + 1)) ++
  [TSetVertex (2 * n + 1) false 3; TSetVertex (2 * n + 1) true 1; TNewF; TNewF; TSetEdges (2 * n + 2) (map (fun e => (e, true)) (zrange (n + 1) (2 * n + 1))); TSetEdges (2 * n + 3) [(n + 1, true); (n + 2, true); (2 * n + 1, true)]].
Theorem C42_polygon_refuted : exists ops s q ops' s' q', built ops s /\ MESH_SendMesh s false = Ok q /\ MESH_RecvMesh false q = Fatal /\
  built ops' s' /\ MESH_SendMesh s' false = Ok q' /\ MESH_RecvMesh false q' = Undef.
Proof.
  destruct (shared_ok (plain (polygon 31) 31 31 1 [] []) false is_fatal) as (q & E & Q); [vm_compute; reflexivity|].
  destruct (shared_ok (plain (polygon3 31) 31 32 2 [] []) false is_undef) as (q' & E' & Q'); [vm_compute; reflexivity|].
  exists (polygon 31), (plain (polygon 31) 31 31 1 [] []), q, (polygon3 31), (plain (polygon3 31) 31 32 2 [] []), q'.
  split; [apply plain_ok; try lia; vm_compute; reflexivity|]. split; [exact E|]. split; [apply fatal_eq; exact Q|]. split; [apply plain_ok; try lia; vm_compute; reflexivity|]. split; [exact E'|]. apply undef_eq; exact Q'.
Qed.
Print Assumptions C42_polygon_refuted.
(** With 30 edges the same mesh is received. *)
Example C42_polygon_refuted_ex : shared (plain (polygon 30) 30 30 1 [] []) false (fun r => match r with Ok (s', []) => Z.of_nat (length (skind s' 1)) =? 30 | _ => false end) = true.
Proof. vm_compute. reflexivity. Qed.

(** Attributes and sets on the two tetrahedra, which can be sent without them:
    a vector without a value on one vertex, a vector with one component, an empty set. *)
Theorem C42_vectors_refuted : exists s x y z, let with_x l r := mkSM (mkFM (sm_t s) (fm_c (sm_m s)) (fm_x (sm_m s)) (fm_id (sm_m s)) (skind s 0) (skind s 1) (skind s 2) (skind s 3) l) (sm_p s) r in
  (exists a, sendable s a true) /\
  at_type x = TVECTOR /\ at_ncomp x = 3 /\ at_ent x = MVERTEX /\ (exists v0, In v0 (skind s 0) /\ at_val x v0 = None /\ forall v, In v (skind s 0) -> v <> v0 -> exists l, at_val x v = Some (AVec l) /\ length l = 3%nat) /\
  MESH_SendMesh (with_x [x] []) true = Undef /\
  at_type y = TVECTOR /\ at_ncomp y = 1 /\ at_ent y = MREGION /\ (forall r, In r (skind s 3) -> exists b, at_val y r = Some (AVec [b])) /\
  (exists q, MESH_SendMesh (with_x [y] []) true = Ok q /\ MESH_RecvMesh true q = Undef) /\
  ms_list z = [] /\ MESH_SendMesh (with_x [] [z]) true = Undef.
Proof.
  pose (x := mkAttr (str "vel") TVECTOR 3 MVERTEX (fun p => if p =? 4 then None else Some (AVec [fl p 1; fl 1 2; fl 0 1]))). pose (y := mkAttr (str "flux") TVECTOR 1 MREGION (fun p => Some (AVec [fl p 1]))). pose (z := mkSet (str "none") MFACE []).
  exists (smesh0 ids0 [] []), x, y, z. intro with_x. split.
  { exists A0. apply sendable0; intros _; (split; [constructor|]); split; constructor. }
  split; [reflexivity|]. split; [reflexivity|]. split; [reflexivity|]. split.
  { exists 4. split; [vm_compute; tauto|]. split; [reflexivity|]. intros v _ N. cbn [x at_val]. destruct (Z.eqb_spec v 4); [contradiction|]. eexists. split; reflexivity. }
  split; [apply undef_eq; vm_compute; reflexivity|]. split; [reflexivity|]. split; [reflexivity|]. split; [reflexivity|]. split; [intros r _; eexists; reflexivity|]. split.
  { destruct (shared_ok (with_x [y] []) true is_undef) as (q & E & Q); [vm_compute; reflexivity|]. exists q. split; [exact E|apply undef_eq; exact Q]. }
  split; [reflexivity|]. apply undef_eq; vm_compute; reflexivity.
Qed.
Print Assumptions C42_vectors_refuted.
