(** C36: writing a mesh to a file and reading the file (MESH_WriteToFile.c,
    MESH_InitFromFile.c). *)
From Coq Require Import ZArith Bool Ascii String Floats.SpecFloat List Lia Arith ZifyBool ZifyNat.
From Verif Require Import Base BaseProofs ListSpec AttModel AttProps TopoModel TopoSpec TopoProofs TopoProofs2 TopoProofs3 TopoProofs5 TopoProofs6 TopoProps ModProofs ParModel FileModel FileSpec FileProofs FileProofs2 FileProofs3 FileProofs4 FileProofs5.
Import ListNotations.
Open Scope Z_scope.

(** Full statement: reading a file written by MESH_WriteToFile gives the same
    mesh, for every mesh.  Missing: meshes without edges, names with spaces
    (refuted below), edges without vertices and faces or regions not yet set,
    other representations than F1, several processors.
    Every complete mesh with an edge can be written, and reading the file gives a copy: same
    entities in the same order, same ends, loops and faces with directions, same
    classification, the attributes that have values; doubles as printed. *)
Theorem C36_round_trip_partial : forall m a, printable m a ->
  exists s m' a' phi, MESH_WriteToFile m = Ok s /\ MESH_InitFromFile s = Ok (Some m') /\ file_copy m m' a a' phi.
Proof.
  intros m a P. destruct (write_ok m a P) as (s & E & W). destruct (read_ok m a P s W) as (m' & a' & E' & F). exists s, m', a', (phi m). auto.
Qed.
Print Assumptions C36_round_trip_partial.

(** ** Two tetrahedra with attributes *)
Definition fl (n d : Z) := to_double false n d.
Definition A0 : amesh := arun amesh0 tets.
Definition mesh0 (x : ptr -> spec_float * spec_float * spec_float) (l : list attr) : fmesh :=
  mkFM T0 (fun p => (p mod 4, p)) x (fun p => p) [1; 2; 3; 4; 5] (zrange 6 15) (zrange 15 22) [22; 23] l.
Definition x0 (p : ptr) := (fl p 3, to_double true p 10, S754_zero true).
Definition atts0 : list attr :=
  [mkAttr (str "mat") TINT 1 MREGION (fun p => if p =? 23 then Some (AInt (-7)) else None);
   mkAttr (str "none") TDOUBLE 1 MFACE (fun _ => None);
   mkAttr (str "vel") TVECTOR 2 MALLTYPE (fun p => if (p =? 3) || (p =? 10) then Some (AVec [fl 1 3; fl 2 1]) else None)].
Lemma A0_reach : reach T0 A0.
Proof. exact T0_reach. Qed.
Lemma small : forall (Q : ptr -> bool) p, 1 <= p < 24 -> forallb Q (zrange 1 24) = true -> Q p = true.
Proof. intros Q p H F. rewrite forallb_forall in F. apply F. apply in_map_iff. exists (Z.to_nat (p - 1)). split; [lia|]. apply in_seq. lia. Qed.
Lemma printable0 : forall x l, Forall (good_attr (mesh0 x l)) l -> printable (mesh0 x l) A0.
Proof.
  intros x l G. pose proof A0_reach as R. pose proof (i_w _ _ (reach_inv _ _ R)) as W.
  assert (K : forall d p, In p (kind (mesh0 x l) d) -> 1 <= p < 24).
  { intros d p H. destruct (kind_cases _ _ _ H) as [-> | [-> | [-> | ->]]]; vm_compute in H; lia. }
  constructor; cbn [mesh0 fm_t fm_c fm_v fm_e fm_f fm_r fm_atts]; auto.
  - intro d. unfold kind. cbn [mesh0 fm_v fm_e fm_f fm_r]. destruct (d =? 0); [|destruct (d =? 1); [|destruct (d =? 2); [|destruct (d =? 3); [|constructor]]]]; try apply zrange_nd; repeat (constructor; [cbn; lia|]); constructor.
  - intro p. split.
    + intro H. unfold live_v. cbn in H. destruct H as [<- | [<- | [<- | [<- | [<- | []]]]]]; reflexivity.
    + intro H. pose proof (w_v _ W p ltac:(unfold live_v in H; congruence)) as B. change (a_next A0) with 24 in B. pose proof (small (fun p => match a_v A0 p with Some true => ListSpec.mem p [1; 2; 3; 4; 5] | _ => true end) p B ltac:(vm_compute; reflexivity)) as S0. cbv beta in S0. unfold live_v in H. rewrite H in S0. apply mem_In. auto.
  - intro p. split.
    + intro H. pose proof (small (fun p => if ListSpec.mem p (zrange 6 15) then match a_e A0 p with Some (true, _) => true | _ => false end else true) p (K 1 p H) ltac:(vm_compute; reflexivity)) as S0. cbv beta in S0. apply mem_In in H. rewrite H in S0. destruct (a_e A0 p) as [[[] y]|] eqn:E; try discriminate. exists y. auto.
    + intros [y H]. pose proof (w_e _ W p ltac:(congruence)) as B. change (a_next A0) with 24 in B. pose proof (small (fun p => match a_e A0 p with Some (true, _) => ListSpec.mem p (zrange 6 15) | _ => true end) p B ltac:(vm_compute; reflexivity)) as S0. cbv beta in S0. rewrite H in S0. apply mem_In. auto.
  - intro p. split.
    + intro H. pose proof (small (fun p => if ListSpec.mem p (zrange 15 22) then match a_f A0 p with Some (true, _) => true | _ => false end else true) p (K 2 p H) ltac:(vm_compute; reflexivity)) as S0. cbv beta in S0. apply mem_In in H. rewrite H in S0. destruct (a_f A0 p) as [[[] y]|] eqn:E; try discriminate. exists y. auto.
    + intros [y H]. pose proof (w_f _ W p ltac:(congruence)) as B. change (a_next A0) with 24 in B. pose proof (small (fun p => match a_f A0 p with Some (true, _) => ListSpec.mem p (zrange 15 22) | _ => true end) p B ltac:(vm_compute; reflexivity)) as S0. cbv beta in S0. rewrite H in S0. apply mem_In. auto.
  - intro p. split.
    + intro H. pose proof (small (fun p => if ListSpec.mem p [22; 23] then match a_r A0 p with Some (true, _) => true | _ => false end else true) p (K 3 p H) ltac:(vm_compute; reflexivity)) as S0. cbv beta in S0. apply mem_In in H. rewrite H in S0. destruct (a_r A0 p) as [[[] y]|] eqn:E; try discriminate. exists y. auto.
    + intros [y H]. pose proof (w_r _ W p ltac:(congruence)) as B. change (a_next A0) with 24 in B. pose proof (small (fun p => match a_r A0 p with Some (true, _) => ListSpec.mem p [22; 23] | _ => true end) p B ltac:(vm_compute; reflexivity)) as S0. cbv beta in S0. rewrite H in S0. apply mem_In. auto.
  - intros e v0 v1 H. pose proof (w_e _ W e ltac:(congruence)) as B. change (a_next A0) with 24 in B. pose proof (small (fun p => match a_e A0 p with Some (true, (v0, v1)) => negb (v0 =? NULL) && negb (v1 =? NULL) | _ => true end) e B ltac:(vm_compute; reflexivity)) as S0. cbv beta in S0. rewrite H in S0. lia.
  - intros f H. pose proof (w_f _ W f ltac:(congruence)) as B. change (a_next A0) with 24 in B. pose proof (small (fun p => match a_f A0 p with Some (true, None) => false | _ => true end) f B ltac:(vm_compute; reflexivity)) as S0. cbv beta in S0. rewrite H in S0. discriminate.
  - intros f H. pose proof (w_r _ W f ltac:(congruence)) as B. change (a_next A0) with 24 in B. pose proof (small (fun p => match a_r A0 p with Some (true, None) => false | _ => true end) f B ltac:(vm_compute; reflexivity)) as S0. cbv beta in S0. rewrite H in S0. discriminate.
  - intros d p H. pose proof (K _ _ H). cbn [fst snd]. pose proof (Z.mod_pos_bound p 4 ltac:(lia)). lia.
  - vm_compute. reflexivity.
  - discriminate.
Qed.
Lemma good0 : Forall (good_attr (mesh0 x0 atts0)) atts0.
Proof.
  unfold atts0. repeat apply Forall_cons; try apply Forall_nil.
  - constructor; cbn; unfold MREGION, MFACE; try lia; [split; [discriminate|split; [repeat constructor|vm_compute; reflexivity]]|]. intros d p v _ _ H. destruct (p =? 23); inversion H; subst. cbn. lia.
  - constructor; cbn; unfold MREGION, MFACE; try lia; [split; [discriminate|split; [repeat constructor|vm_compute; reflexivity]]|]. intros. discriminate.
  - constructor; cbn; unfold MREGION, MFACE; try lia; [split; [discriminate|split; [repeat constructor|vm_compute; reflexivity]]|]. intros d p v _ _ H. destruct ((p =? 3) || (p =? 10)); inversion H; subst. reflexivity.
Qed.
Example C36_round_trip_partial_ex : exists s m' a' phi, MESH_WriteToFile (mesh0 x0 atts0) = Ok s /\ MESH_InitFromFile s = Ok (Some m') /\ file_copy (mesh0 x0 atts0) m' A0 a' phi /\
  map at_name (fm_atts m') = [str "mat"; str "vel"] /\ map (phi 3) [22; 23] = fm_r m' /\ at_val (nth 0 (fm_atts m') (mkAttr [] TINT 0 0 (fun _ => None))) (phi 3 23) = Some (AInt (-7)).
Proof.
  destruct (C36_round_trip_partial _ _ (printable0 x0 atts0 good0)) as (s & m' & a' & phi & E1 & E2 & F). exists s, m', a', phi. split; auto. split; auto. split; auto.
  assert (Q : match MESH_WriteToFile (mesh0 x0 atts0) with Ok s => match MESH_InitFromFile s with Ok (Some m') => map at_name (fm_atts m') = [str "mat"; str "vel"] /\ fm_r m' = [22; 23] /\ at_val (nth 0 (fm_atts m') (mkAttr [] TINT 0 0 (fun _ => None))) 23 = Some (AInt (-7)) | _ => False end | _ => False end)
    by (vm_compute; repeat split; reflexivity).
  rewrite E1, E2 in Q. destruct Q as (Q1 & Q2 & Q3). split; auto. pose proof (fc_kind _ _ _ _ _ F 3) as K. cbn [kind Z.eqb Pos.eqb mesh0 fm_r] in K. rewrite Q2 in K |- *. split; [auto|]. cbn in K. injection K as _ <-. exact Q3.
Qed.

(** What becomes of a mesh that is written and read. *)
Definition through (m : fmesh) (Q : result (option fmesh) -> bool) : bool := match MESH_WriteToFile m with Ok s => Q (MESH_InitFromFile s) | _ => false end.
Lemma through_ok : forall m Q, through m Q = true -> exists s, MESH_WriteToFile m = Ok s /\ Q (MESH_InitFromFile s) = true.
Proof. intros m Q H. unfold through in H. destruct (MESH_WriteToFile m) as [s| | |]; try discriminate. exists s. auto. Qed.

(** A mesh without edges is written, but reading the file fails (returns 0). *)
Definition point : fmesh := mkFM (fst (MV_New empty_topo)) (fun _ => (0, 0)) (fun _ => (S754_zero false, S754_zero false, S754_zero false)) (fun p => p) [1] [] [] [] [].
Theorem C36_points_refuted : exists m a s, reach (fm_t m) a /\ fm_v m = [1] /\ live_v a 1 /\ MESH_WriteToFile m = Ok s /\ MESH_InitFromFile s = Ok None.
Proof.
  destruct (through_ok point (fun r => match r with Ok None => true | _ => false end)) as (s & E & Q); [vm_compute; reflexivity|].
  exists point, (astep amesh0 TNewV), s. destruct (reach_step _ _ TNewV (ex_intro _ [] (conj I (conj eq_refl eq_refl))) I) as (t & E1 & R). cbn [tstep] in E1. injection E1 as <-.
  split; [exact R|]. split; [reflexivity|]. split; [reflexivity|]. split; [exact E|]. destruct (MESH_InitFromFile s) as [[|]| | |]; try discriminate. reflexivity.
Qed.
Print Assumptions C36_points_refuted.
(** An attribute whose name contains a space: reading the file stops the program. *)
Theorem C36_name_refuted : exists l s, (forall A, In A l -> at_name A = str "flow rate" /\ at_type A = TINT /\ at_ncomp A = 1 /\ at_ent A = MREGION) /\
  MESH_WriteToFile (mesh0 x0 l) = Ok s /\ MESH_InitFromFile s = Fatal.
Proof.
  pose (l := [mkAttr (str "flow rate") TINT 1 MREGION (fun p => if p =? 23 then Some (AInt (-7)) else None)]).
  destruct (through_ok (mesh0 x0 l) (fun r => match r with Fatal => true | _ => false end)) as (s & E & Q); [vm_compute; reflexivity|].
  exists l, s. split; [clear E Q; intros A [<- | []]; repeat split|]. split; [exact E|]. clear E. destruct (MESH_InitFromFile s) as [[|]| | |]; try discriminate Q. reflexivity.
Qed.
Print Assumptions C36_name_refuted.
(** Distinct points become the same point, and a nonzero value becomes zero. *)
Definition is_zero (o : option attval) : bool := match o with Some (ADbl (S754_zero false)) => true | _ => false end.
Definition no_x (x : spec_float * spec_float * spec_float) : bool := match x with (S754_zero false, S754_zero false, S754_zero false) => true | _ => false end.
Theorem C36_small_refuted : exists m a s m', printable m a /\ MESH_WriteToFile m = Ok s /\ MESH_InitFromFile s = Ok (Some m') /\
  fm_x m 1 <> fm_x m 2 /\ (exists p q l, fm_v m' = p :: q :: l /\ p <> q /\ fm_x m' p = fm_x m' q) /\
  exists A A' v, fm_atts m = [A] /\ fm_atts m' = [A'] /\ at_val A 22 = Some (ADbl v) /\ SFeqb v (S754_zero false) = false /\
    at_val A' (nth 0 (fm_r m') NULL) = Some (ADbl (S754_zero false)).
Proof.
  set (x := fun p : ptr => (fl p (10 ^ 17), S754_zero false, S754_zero false)). set (l := [mkAttr (str "porosity") TDOUBLE 1 MREGION (fun p => if p =? 22 then Some (ADbl (fl 1 (10 ^ 7))) else None)]).
  assert (G : Forall (good_attr (mesh0 x l)) l).
  { apply Forall_cons; [|apply Forall_nil]. constructor; [split; [discriminate|split; [repeat constructor|vm_compute; reflexivity]]|reflexivity|right; vm_compute; split; discriminate|].
    intros d p v _ _ H. cbn [at_val] in H. destruct (p =? 22); inversion H; subst. exact I. }
  destruct (through_ok (mesh0 x l) (fun r => match r with Ok (Some m') => match fm_v m', fm_atts m' with p :: q :: _, [A'] => negb (p =? q) && no_x (fm_x m' p) && no_x (fm_x m' q) && is_zero (at_val A' (nth 0 (fm_r m') NULL)) | _, _ => false end | _ => false end)) as (s & E & Q); [vm_compute; reflexivity|].
  destruct (MESH_InitFromFile s) as [[m'|]| | |] eqn:E2; try discriminate Q. destruct (fm_v m') as [|p [|q k]] eqn:EV; try discriminate Q. destruct (fm_atts m') as [|A' [|]] eqn:EA; try discriminate Q.
  apply andb_true_iff in Q. destruct Q as [Q Q4]. apply andb_true_iff in Q. destruct Q as [Q Q3]. apply andb_true_iff in Q. destruct Q as [Q1 Q2].
  exists (mesh0 x l), A0, s, m'. split; [exact (printable0 x l G)|]. split; [exact E|]. split; [exact E2|]. split.
  { intro H. assert (N : fl 1 (10 ^ 17) = fl 2 (10 ^ 17)) by (change (fst (fst (x 1)) = fst (fst (x 2))); change (x 1 = x 2) in H; rewrite H; reflexivity). vm_compute in N. discriminate N. }
  split.
  - exists p, q, k. split; [exact EV|]. split; [clear - Q1; lia|]. destruct (fm_x m' p) as [[u1 u2] u3]. destruct (fm_x m' q) as [[w1 w2] w3]. unfold no_x in *.
    destruct u1 as [[]|?| |? ? ?]; try discriminate Q2. destruct u2 as [[]|?| |? ? ?]; try discriminate Q2. destruct u3 as [[]|?| |? ? ?]; try discriminate Q2.
    destruct w1 as [[]|?| |? ? ?]; try discriminate Q3. destruct w2 as [[]|?| |? ? ?]; try discriminate Q3. destruct w3 as [[]|?| |? ? ?]; try discriminate Q3. reflexivity.
  - exists (hd A' l), A', (fl 1 (10 ^ 7)). split; [reflexivity|]. split; [exact EA|]. split; [reflexivity|]. split; [vm_compute; reflexivity|].
    unfold is_zero in Q4. destruct (at_val A' _) as [[?|[[]|?| |? ? ?]|?]|]; try discriminate Q4. reflexivity.
Qed.
Print Assumptions C36_small_refuted.
