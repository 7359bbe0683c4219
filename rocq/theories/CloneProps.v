(** C50: copying a mesh (MESH_Copy.c). *)
From Coq Require Import ZArith Bool Ascii String Floats.SpecFloat List Lia Arith ZifyBool ZifyNat.
From Verif Require Import Base BaseProofs ListSpec AttModel AttProps TopoModel TopoSpec TopoProofs TopoProps ParModel FileModel FileSpec FileProofs4 FileProps SendModel SendSpec SendProofs4 SendProps PartModel CopyModel CloneModel CloneSpec CloneProofs CloneProofs2.
Import ListNotations.
Open Scope Z_scope.

(** A mesh is copied into a new mesh.  The mesh has edges and faces, the faces have at most 30
    edges, and no attribute has the name copyatt (both are needed, see below).  The copy has the same entities in the same order, with the same IDs (which
    may have gaps), global IDs, ends, loops and faces with directions, classification, coordinates,
    parallel types, boundary flags (not of regions) and owners; all attributes, with the values other
    than 0 and other than addresses; and all sets. *)
Theorem C50_copy : forall s a (wa ws : bool), clonable s a -> (wa = true -> Forall (good_catt s) (satts s)) -> (ws = true -> Forall (good_cset s) (sm_sets s)) ->
  exists s' a' phi, MESH_Copy s empty_smesh wa ws = Ok s' /\ mesh_copy false s (bare s') a a' phi /\
    Forall2 (att_cloned s phi) (if wa then cloned_atts s else []) (satts s') /\ Forall2 (set_sent s phi) (if ws then sm_sets s else []) (sm_sets s').
Proof. exact clone_ok. Qed.
Print Assumptions C50_copy.

(** Two tetrahedra, IDs with gaps, attributes of all types, one on entities of all dimensions,
    a vector without values on some edges, an empty set. *)
Definition gaps (p : ptr) : Z := 3 * p + 1.
Definition catts : list attr := satts0 ++ [mkAttr (str "dir") TVECTOR 2 MEDGE (fun p => if p =? 7 then Some (AVec [fl 1 3; fl 2 1]) else None)].
Definition csets : list mset := sets0 ++ [mkSet (str "none") MVERTEX []].
Lemma clonable0 : forall l sets, clonable (smesh0 gaps l sets) A0.
Proof. intros l sets. exists ids0. change (set_ids (smesh0 gaps l sets) ids0) with (smesh0 ids0 l sets). apply (sendable0 l sets false); discriminate. Qed.
Lemma cgood0 : forall sets, Forall (good_catt (smesh0 gaps catts sets)) catts.
Proof.
  intro sets. unfold catts, satts0. cbn [app]. repeat apply Forall_cons; try apply Forall_nil; (constructor; cbn [at_name at_type at_ncomp at_val]; [vm_compute; discriminate|exact I || reflexivity|intros d p v _ _ T H; try congruence]).
  - destruct (p =? 23); inversion H; cbn; lia.
  - destruct (p =? 16); inversion H; exact I.
  - inversion H; reflexivity.
  - destruct (p =? 3); inversion H; cbn; lia.
  - destruct (p =? 7); inversion H; reflexivity.
Qed.
Lemma csgood0 : forall l, Forall (good_cset (smesh0 gaps l csets)) csets.
Proof.
  intro l. repeat apply Forall_cons; try apply Forall_nil; (split; [vm_compute; discriminate|]); cbn [ms_list].
  - intros p [<- | [<- | []]]; exists 2; vm_compute; tauto.
  - intros p [<- | [<- | [<- | [<- | []]]]]; [exists 0|exists 3|exists 1|exists 0]; vm_compute; tauto.
  - intros p [].
Qed.
Definition att_at (s : smesh) (i : nat) (p : ptr) : option attval := at_val (nth i (satts s) (mkAttr [] TINT 0 0 (fun _ => None))) p.
Example C50_copy_ex : clonable (smesh0 gaps catts csets) A0 /\ Forall (good_catt (smesh0 gaps catts csets)) catts /\ Forall (good_cset (smesh0 gaps catts csets)) csets /\
  match MESH_Copy (smesh0 gaps catts csets) empty_smesh true true with
  | Ok s' => skind s' 3 = [22; 23] /\ map (fm_id (sm_m s')) [1; 2; 9; 23] = [4; 7; 28; 70] /\ map at_name (satts s') = map str ["mat"; "ptr"; "flow rate"; "vel"; "all"; "dir"]%string /\
      map (att_at s' 0) [22; 23] = [None; Some (AInt (-7))] /\ map (att_at s' 4) [3; 4] = [Some (AInt 5); None] /\ map (att_at s' 5) [6; 7] = [None; Some (AVec [fl 1 3; fl 2 1])] /\
      map ms_list (sm_sets s') = [[18; 16]; [3; 23; 8; 3]; []] /\ MR_Faces (sm_t s') 23 = Ok [17; 19; 20; 21] /\ sm_p s' 9 = par0 9 /\ pi_bdry (sm_p s' 22) = false
  | _ => False
  end.
Proof. split; [apply clonable0|]. split; [apply cgood0|]. split; [apply csgood0|]. vm_compute. repeat split; reflexivity. Qed.
(** Without attributes and sets. *)
Example C50_copy_ex_bare : match MESH_Copy (smesh0 gaps catts csets) empty_smesh false false with Ok s' => satts s' = [] /\ sm_sets s' = [] /\ skind s' 2 = zrange 15 22 | _ => False end.
Proof. vm_compute. auto. Qed.

(** ** Where it fails *)
(** An attribute of the user called copyatt is not copied. *)
Theorem C50_name_refuted : exists s a x s', clonable s a /\ Forall (good_catt s) (satts s) /\ In x (satts s) /\ at_type x = TINT /\ (exists p, In p (skind s 0) /\ at_val x p = Some (AInt 5)) /\
  MESH_Copy s empty_smesh true true = Ok s' /\ forall y, In y (satts s') -> at_name y <> at_name x.
Proof.
  set (x := mkAttr (str "copyatt") TINT 1 MVERTEX (fun p => if p =? 3 then Some (AInt 5) else None)). set (s := smesh0 gaps [x; mkAttr (str "mat") TINT 1 MVERTEX (fun _ => None)] []).
  assert (G : Forall (good_catt s) (satts s)).
  { unfold s, satts. cbn [smesh0 sm_m fm_atts]. repeat apply Forall_cons; try apply Forall_nil; (constructor; unfold x; cbn [at_name at_type at_ncomp at_val]; [vm_compute; discriminate|reflexivity|intros d p v _ _ T H]); [destruct (p =? 3); inversion H; cbn; lia|discriminate]. }
  assert (C : clonable s A0) by apply clonable0.
  destruct (C50_copy s A0 true true C (fun _ => G) (fun _ => Forall_nil _)) as (s' & a' & phi & E & _ & F & _). exists s, A0, x, s'.
  split; [exact C|]. split; [exact G|]. split; [left; reflexivity|]. split; [reflexivity|]. split; [exists 3; split; [vm_compute; tauto|reflexivity]|]. split; [exact E|].
  intros y Hy N. assert (exists x', In x' (cloned_atts s) /\ at_name x' = at_name y) as (x' & Hx & Nx).
  { clear - F Hy. revert Hy. induction F as [|u v l l' Q F IH]; intros []; [subst; exists u; split; [left; auto|symmetry; exact (ac_name _ _ _ _ Q)]|]. destruct (IH H) as (z & A & B). exists z. split; [right; auto|auto]. }
  rewrite N in Nx. cbv in Hx. destruct Hx as [<- | []]. discriminate Nx.
Qed.
Print Assumptions C50_name_refuted.

(** A face may have up to 32 edges; with 31 the arrays of MESH_Copy are overrun. *)
Theorem C50_polygon_refuted : exists ops s, built ops s /\ (exists f b, a_f (arun amesh0 ops) f = Some (true, Some b) /\ length b = 31%nat) /\ MESH_Copy s empty_smesh true true = Undef.
Proof.
  exists (polygon 31), (plain (polygon 31) 31 31 1 [] []). split; [apply plain_ok; try lia; vm_compute; reflexivity|]. split.
  - exists 63, (map (fun e => (e, true)) (zrange 32 63)). split; [vm_compute; reflexivity|vm_compute; reflexivity].
  - apply undef_eq. vm_compute. reflexivity.
Qed.
Print Assumptions C50_polygon_refuted.
(** With 30 edges the mesh is copied. *)
Example C50_polygon_refuted_ex : match MESH_Copy (plain (polygon 30) 30 30 1 [] []) empty_smesh true true with Ok s' => Z.of_nat (length (skind s' 1)) =? 30 | _ => false end = true.
Proof. vm_compute. reflexivity. Qed.
