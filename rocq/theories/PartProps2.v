(** C47: which entities of a part are at its boundary with others (MESH_BuildPBoundary.c). *)
From Coq Require Import ZArith Bool Floats.SpecFloat List Lia Arith ZifyBool ZifyNat.
From Verif Require Import Base BaseProofs ListSpec AttModel AttProps TopoModel TopoSpec TopoProofs2 TopoProps TopoProps2 CheckProps ParModel FileModel FileSpec FileProofs4 SendModel SendSpec PartModel PartSpec PartProofs PartProofs2 PartProofs3 PartProps.
Import ListNotations.
Open Scope Z_scope.

Theorem C47_boundary : forall s a part num s' g2l subs k sub l2g, partable s a -> unparted s -> cells s <> [] -> (length (cells s) <= length part)%nat -> 0 <= num < 2 ^ 29 ->
  MESH_Partition s num part = Ok (s', g2l, subs) -> nth_error subs k = Some (sub, l2g) ->
  exists sub', MESH_BuildPBoundary s' l2g sub = Ok sub' /\
    (* only the flags and types change; all is interior *)
    sm_m sub' = sm_m sub /\ sm_sets sub' = sm_sets sub /\
    (forall q, pi_ptype (sm_p sub' q) = 0 /\ pi_master (sm_p sub' q) = pi_master (sm_p sub q) /\ pi_gid (sm_p sub' q) = pi_gid (sm_p sub q)) /\
    (* flagged is what bounds something outside the part *)
    (forall d q, In q (skind sub d) -> (pi_bdry (sm_p sub' q) = true <-> exists x, bounds a (l2g q) x /\ ~ inpart s a part (Z.of_nat k) x)) /\
    (forall q, pi_bdry (sm_p sub' q) = true -> exists d, In q (skind sub d)).
Proof.
  intros s a part num s' g2l subs k sub l2g P U NE HL HN E Hk. destruct (C46_partition s a part num P U NE HL HN) as (s1 & g1 & subs1 & E1 & Em & _ & _ & Hp & _). rewrite E in E1. inversion E1. subst s1 g1 subs1. clear E1. destruct (Hp _ _ _ Hk) as (a' & I).
  destruct (built_ok s a part _ s' sub a' l2g P I Em NE) as (x & Ex & (X1 & X2 & X3)). exists x. split; [exact Ex|]. split; [exact X1|]. split; [exact X2|]. split; [intro q; destruct (X3 q) as (? & ? & ? & _); auto|]. split.
  - intros d q Hq. destruct (X3 q) as (_ & _ & _ & ->). apply (flag_iff s a part _ s' sub a' l2g P I d q Hq).
  - intros q Hq. destruct (X3 q) as (_ & _ & _ & H). apply H in Hq. clear - Hq I. destruct Hq as [[(f & Hf & O & B)|(e & He & O & B)]|(v & Hv & O & ->)]; [| |eauto].
    + destruct B as [->|(e & He & [->|B])]; [eauto| |]. { destruct (edge_live _ _ _ _ _ _ _ _ I _ _ He). eauto. } destruct (end_live _ _ _ _ _ _ _ _ I _ _ B). eauto.
    + destruct B as [->|B]; [eauto|]. destruct (end_live _ _ _ _ _ _ _ _ I _ _ B). eauto.
Qed.
Print Assumptions C47_boundary.

(** ** The flags and the other parts *)
Lemma inpart_cell : forall s a part k g, inpart s a part k g -> exists i c, nth_error (cells s) i = Some c /\ nth_error part i = Some k /\ (g = c \/ bounds a g c).
Proof.
  intros s a part k g H. induction H as [i g E1 E2|r f d _ (i & c & E1 & E2 & Q) H|f e _ (i & c & E1 & E2 & Q) H|e v _ (i & c & E1 & E2 & Q) H]; [exists i, g; auto| | |]; exists i, c; (split; [exact E1|]; split; [exact E2|]; right).
  - assert (up a f r) by (right; right; eauto). destruct Q as [->|Q]; [apply bd_one; auto|eapply bd_more; eauto].
  - assert (up a e f) by (right; left; auto). destruct Q as [->|Q]; [apply bd_one; auto|eapply bd_more; eauto].
  - assert (up a v e) by (left; auto). destruct Q as [->|Q]; [apply bd_one; auto|eapply bd_more; eauto].
Qed.
Lemma inpart_down : forall s a part k g x, bounds a g x -> inpart s a part k x -> inpart s a part k g.
Proof.
  intros s a part k g x H. assert (U : forall g x, up a g x -> inpart s a part k x -> inpart s a part k g) by (intros ? ? [?|[?|[? ?]]] ?; [eapply ip_vertex|eapply ip_edge|eapply ip_face]; eauto). induction H; eauto.
Qed.
Lemma bounds_trans : forall a x y z, bounds a x y -> bounds a y z -> bounds a x z.
Proof. intros a x y z H. induction H; intro; eapply bd_more; eauto. Qed.
(** Every vertex, edge and face is on a cell. *)
Definition no_dangling (s : smesh) (a : amesh) : Prop := forall d x, In x (skind s d) -> exists c, In c (cells s) /\ (x = c \/ bounds a x c).

Theorem C47_shared : forall s a part num s' g2l subs k sub l2g, partable s a -> unparted s -> cells s <> [] -> length (cells s) = length part -> (forall i, In i part -> 0 <= i < num) -> 0 <= num < 2 ^ 29 -> no_dangling s a ->
  MESH_Partition s num part = Ok (s', g2l, subs) -> nth_error subs k = Some (sub, l2g) ->
  exists sub', MESH_BuildPBoundary s' l2g sub = Ok sub' /\
    forall d q, In q (skind sub d) -> (pi_bdry (sm_p sub' q) = true <-> exists j, 0 <= j < num /\ j <> Z.of_nat k /\ inpart s a part j (l2g q)).
Proof.
  intros s a part num s' g2l subs k sub l2g P U NE HL HP HN ND E Hk. destruct (C47_boundary s a part num s' g2l subs k sub l2g P U NE ltac:(lia) HN E Hk) as (x & Ex & _ & _ & _ & Hb & _). exists x. split; [exact Ex|].
  destruct (C46_partition s a part num P U NE ltac:(lia) HN) as (s1 & g1 & subs1 & E1 & Em & _ & _ & Hp & _). rewrite E in E1. inversion E1. subst s1 g1 subs1. clear E1. destruct (Hp _ _ _ Hk) as (a' & I).
  intros d q Hq. destruct (g_in s a part _ s' sub a' l2g I d q Hq) as [Kg Ig]. rewrite (Hb d q Hq). split.
  - intros (y & By & Ny). assert (Ky : exists d', In y (skind s d')).
    { clear - By Kg P. revert d Kg. induction By as [g0 x0 H0|g0 y0 x0 H0 _ IH]; intros d Kg; pose proof (up_kind s a P _ _ _ Kg H0) as K1; eauto. }
    destruct Ky as [d' Ky]. destruct (ND _ _ Ky) as (c & Hc & Q). apply In_nth_error in Hc. destruct Hc as [i Ei]. assert (Li : (i < length part)%nat) by (rewrite <- HL; apply nth_error_Some; congruence). apply nth_error_Some in Li. destruct (nth_error part i) as [j|] eqn:Ej; [|congruence].
    assert (Ij : inpart s a part j y) by (assert (inpart s a part j c) by (eapply ip_cell; eauto); destruct Q as [->|Q]; auto; eapply inpart_down; eauto).
    exists j. split; [apply HP; eapply nth_error_In; eauto|]. split; [intros ->; auto|]. eapply inpart_down; eauto.
  - intros (j & _ & Nj & Ij). destruct (inpart_cell _ _ _ _ _ Ij) as (i & c & E1 & E2 & Q). assert (NI : ~ inpart s a part (Z.of_nat k) c) by (intro H; pose proof (cell_once s a part P i c _ E1 H); congruence).
    destruct Q as [Q|Q]; [rewrite Q in Ig; contradiction|]. exists c. auto.
Qed.
Print Assumptions C47_shared.

(** ** Examples *)
(** A list [l] of entities that have a cell above: each is a cell or bounds an entry. *)
Definition danglingb (s : smesh) (a : amesh) : bool :=
  let below p := match a_r a p with Some (true, Some b) => map fst b | _ => [] end ++ match a_f a p with Some (true, Some b) => map fst b | _ => [] end ++ match a_e a p with Some (true, (u, w)) => [u; w] | _ => [] end in
  let l1 := flat_map below (cells s) in let l2 := flat_map below l1 in let l3 := flat_map below l2 in
  forallb (fun p => inb p (cells s ++ l1 ++ l2 ++ l3)) (fm_v (sm_m s) ++ fm_e (sm_m s) ++ fm_f (sm_m s) ++ fm_r (sm_m s)).
Lemma danglingb_ok : forall s a, danglingb s a = true -> no_dangling s a.
Proof.
  intros s a H d x Hx. unfold danglingb in H. rewrite forallb_forall in H. assert (IN : In x (fm_v (sm_m s) ++ fm_e (sm_m s) ++ fm_f (sm_m s) ++ fm_r (sm_m s))) by (rewrite !in_app_iff; destruct (kind_cases _ _ _ Hx) as [-> | [-> | [-> | ->]]]; auto). specialize (H x IN). apply inb_ok in H. clear IN Hx.
  set (below := fun p => match a_r a p with Some (true, Some b) => map fst b | _ => [] end ++ match a_f a p with Some (true, Some b) => map fst b | _ => [] end ++ match a_e a p with Some (true, (u, w)) => [u; w] | _ => [] end) in H.
  assert (B : forall p y, In y (below p) -> up a y p).
  { intros p y Hy. unfold below in Hy. rewrite !in_app_iff in Hy. destruct Hy as [Hy|[Hy|Hy]].
    - destruct (a_r a p) as [[[|] [b|]]|] eqn:Ep; try destruct Hy. apply in_map_iff in Hy. destruct Hy as ([y' e] & <- & Hy). right. right. exists e. exists b. auto.
    - destruct (a_f a p) as [[[|] [b|]]|] eqn:Ep; try destruct Hy. right. left. exists b. auto.
    - destruct (a_e a p) as [[[|] [u w]]|] eqn:Ep; try destruct Hy. { left. exists u, w. auto. } destruct H0 as [<-|[]]. left. exists u, w. auto. }
  clearbody below. assert (F : forall l, (forall y, In y l -> exists c, In c (cells s) /\ (y = c \/ bounds a y c)) -> forall y, In y (flat_map below l) -> exists c, In c (cells s) /\ (y = c \/ bounds a y c)).
  { intros l Hl y Hy. apply in_flat_map in Hy. destruct Hy as (p & Hp & Hy). apply B in Hy. destruct (Hl _ Hp) as (c & Hc & Q). exists c. split; auto. right. destruct Q as [<-|Q]; [apply bd_one; auto|eapply bd_more; eauto]. }
  assert (C0 : forall y, In y (cells s) -> exists c, In c (cells s) /\ (y = c \/ bounds a y c)) by eauto. pose proof (F _ C0) as C1. pose proof (F _ C1) as C2. pose proof (F _ C2) as C3. rewrite !in_app_iff in H. destruct H as [H|[H|[H|H]]]; auto.
Qed.
Definition flags (s' : smesh) (x : smesh * (ptr -> ptr)) : list (list (ptr * bool)) :=
  match MESH_BuildPBoundary s' (snd x) (fst x) with Ok sub => map (fun d => map (fun q => (snd x q, pi_bdry (sm_p sub q))) (skind sub d)) [0; 1; 2; 3] | _ => [] end.
(** The middle one of three triangles has its edges 7 and 10 and all vertices in common
    with the others; of the two outer ones the edges inside the part are not flagged. *)
Example C47_ex : partable (strip_mesh clean) (arun amesh0 strip) /\ unparted (strip_mesh clean) /\ no_dangling (strip_mesh clean) (arun amesh0 strip) /\
  match MESH_Partition (strip_mesh clean) 2 [0; 1; 0] with
  | Ok (s', _, [p0; p1]) =>
      flags s' p1 = [[(2, true); (4, true); (3, true)]; [(9, false); (10, true); (7, true)]; [(14, false)]; []] /\
      nth 0 (flags s' p0) [] = [(1, false); (2, true); (3, true); (4, true); (5, false)]
  | _ => False
  end.
Proof. split; [apply strip_ok|]. split; [apply unpartedb_ok; vm_compute; reflexivity|]. split; [apply danglingb_ok; vm_compute; reflexivity|]. vm_compute. split; reflexivity. Qed.
Example C47_ex_vol : partable (tets_mesh clean) (arun amesh0 tets) /\ unparted (tets_mesh clean) /\ no_dangling (tets_mesh clean) (arun amesh0 tets) /\
  match MESH_Partition (tets_mesh clean) 2 [1; 0] with
  | Ok (s', _, [p0; p1]) => filter snd (nth 2 (flags s' p1) []) = [(17, true)] /\ length (filter snd (nth 1 (flags s' p1) [])) = 3%nat /\ nth 0 (flags s' p1) [] = [(1, false); (2, true); (3, true); (4, true)]
  | _ => False
  end.
Proof. split; [apply tets_ok|]. split; [apply unpartedb_ok; vm_compute; reflexivity|]. split; [apply danglingb_ok; vm_compute; reflexivity|]. vm_compute. repeat split; reflexivity. Qed.

(** An edge without faces at a vertex: the vertex is flagged although there is one part only. *)
Definition tail : list top := strip ++ [TNewV; TNewE; TSetVertex 17 false 1; TSetVertex 17 true 16].
Definition tail_mesh : smesh :=
  mkSM (mkFM (tget tail) (fun p => (p mod 4, p)) xyz (fun p => p) [1; 2; 3; 4; 5; 16] (zrange 6 13 ++ [17]) [13; 14; 15] [] []) clean [].
Lemma tail_ok : partable tail_mesh (arun amesh0 tail).
Proof. apply partableb_ok; [apply (reach_tget tail); vm_compute; reflexivity|vm_compute; reflexivity]. Qed.
Theorem C47_dangling_refuted : exists s a part s' g2l sub l2g sub' q, partable s a /\ unparted s /\ length (cells s) = length part /\ (forall i, In i part -> i = 0) /\ MESH_Partition s 1 part = Ok (s', g2l, [(sub, l2g)]) /\ MESH_BuildPBoundary s' l2g sub = Ok sub' /\ In q (skind sub 0) /\ pi_bdry (sm_p sub' q) = true.
Proof.
  assert (H : match MESH_Partition tail_mesh 1 [0; 0; 0] with
    | Ok (s', _, [(sub, f)]) => match MESH_BuildPBoundary s' f sub with Ok sub' => inb 2 (skind sub 0) && pi_bdry (sm_p sub' 2) | _ => false end
    | _ => false end = true) by (vm_compute; reflexivity).
  destruct (MESH_Partition tail_mesh 1 [0; 0; 0]) as [[[s' g2l] subs]| | |] eqn:E; try discriminate H. destruct subs as [|[sub f] [|]]; try discriminate H. destruct (MESH_BuildPBoundary s' f sub) as [sub'| | |] eqn:E2; try discriminate H. apply andb_prop in H. destruct H as [H1 H2]. apply inb_ok in H1.
  exists tail_mesh, (arun amesh0 tail), [0; 0; 0], s', g2l, sub, f, sub', 2. split; [exact tail_ok|]. split; [apply unpartedb_ok; vm_compute; reflexivity|]. split; [reflexivity|]. split; [cbn; intuition lia|]. auto.
Qed.
Print Assumptions C47_dangling_refuted.
