(** C54: surface meshes written in the formats OFF and STL (MESH_ExportToOFF.c, MESH_ExportToSTL.c). *)
From Coq Require Import ZArith Bool Ascii String Floats.SpecFloat List Lia Arith ZifyBool ZifyNat.
From Verif Require Import Base BaseProofs ListSpec AttModel TopoModel TopoSpec TopoProofs TopoProofs2 TopoProofs3 TopoProofs5 TopoProps TopoProps2 CheckProps ModProofs BuildProofs3 ParModel FileModel FileSpec FileProofs FileProofs2 FileProofs4 SendModel SendSpec PartSpec LabelProps PartProps ColModel ExportModel ExportSpec ExportProofs.
Import ListNotations.
Open Scope Z_scope.

(** A surface mesh: faces with proper loops, no regions, vertices numbered 1, 2, ... *)
Record surface (s : smesh) (a : amesh) : Prop := mkSurface {
  su_mesh : partable s a;
  su_none : skind s 3 = [];
  su_some : skind s 2 <> [];
  su_loops : forall f, In f (skind s 2) -> good_face a f;
  su_size : Z.of_nat (List.length (skind s 0) + List.length (skind s 1) + List.length (skind s 2)) < 2 ^ 31 }.
Definition vnumbered (s : smesh) : Prop := forall i v, nth_error (skind s 0) i = Some v -> fm_id (sm_m s) v = Z.of_nat i + 1.

Definition wids (s : smesh) (f : ptr) : list Z := match MF_Vertices (sm_t s) f 1 NULL with Ok vs => map (fm_id (sm_m s)) vs | _ => [] end.

Theorem C54_off : forall s a, surface s a -> vnumbered s -> exists file, MESH_ExportToOFF (sm_m s) = Ok (1, Some file) /\ off_of s a 1 file.
Proof.
  intros s a [P NR NF GF SZ] NU. pose proof (pa_reach _ _ P) as RE. pose proof (reach_inv _ _ RE) as I.
  unfold MESH_ExportToOFF. change (fm_r (sm_m s)) with (skind s 3). change (fm_f (sm_m s)) with (skind s 2). change (fm_v (sm_m s)) with (skind s 0). change (fm_e (sm_m s)) with (skind s 1). rewrite NR. destruct (skind s 2) as [|f0 fl] eqn:EF; [contradiction|]. rewrite <- EF in *. clear EF f0 fl.
  destruct (printM_ok _ (off_vertex (sm_m s)) (fun v => pwords 12 (fm_x (sm_m s) v)) (skind s 0)) as (sv & Ev & Cv & Wv).
  { intros v Hv. apply (pa_v _ _ P) in Hv. unfold live_v in Hv. rewrite <- (i_v _ _ I) in Hv. unfold off_vertex, getv. change (fm_t (sm_m s)) with (sm_t s). destruct (tvs (sm_t s) v); [|discriminate]. cbn [bind]. pose proof (line_closed 20 12 (fm_x (sm_m s) v)) as L. unfold line3 in L. destruct (fm_x (sm_m s) v) as [[x y] z]. exact L. }
  destruct (printM_ok _ (off_face (sm_m s)) (fun f => lwords (wids s f)) (skind s 2)) as (sf & Ef & Cf & Wf).
  { intros f Hf. destruct (face_verts s a P f (GF f Hf)) as (b & vs & _ & _ & E & _ & _ & G). unfold wids. rewrite E. apply off_face_ok; auto. intros v Hv. apply G. auto. }
  rewrite Ev, Ef. cbn [bind]. eexists. split; [reflexivity|]. exists (map (wids s) (skind s 2)). split.
  - rewrite <- (map_map (fm_x (sm_m s)) (pback 12)). apply read_ok with (nv := ZL (skind s 0)) (nf := ZL (skind s 2)) (ne := ZL (skind s 1)); unfold ZL, is_int; rewrite ?map_length; try lia.
    + unfold nl, sp. cbn [app]. rewrite words_split by reflexivity. rewrite words_split by reflexivity. rewrite words_split by reflexivity. rewrite words_split by reflexivity. rewrite !words_pd. rewrite Cv, Wv, Wf. rewrite !map_map. cbn [app]. reflexivity.
    + intros l Hl. apply in_map_iff in Hl. destruct Hl as (f & <- & Hf). destruct (face_verts s a P f (GF f Hf)) as (b & vs & _ & _ & E & L & _ & G). unfold wids. rewrite E. split; [rewrite map_length; lia|].
      apply Forall_forall. intros i Hi. apply in_map_iff in Hi. destruct Hi as (v & <- & Hv). destruct (G v Hv) as [Hs _]. apply In_nth_error in Hs. destruct Hs as (i & Ei). rewrite (NU _ _ Ei). assert (i < List.length (skind s 0))%nat by (apply nth_error_Some; congruence). unfold is_int. lia.
  - assert (H : forall l, incl l (skind s 2) -> Forall2 (corners s a 1) l (map (wids s) l)).
    { induction l as [|f l IH]; intro HL; cbn [map]; constructor; [|apply IH; intros x Hx; apply HL; right; auto].
      destruct (face_verts s a P f (GF f (HL f (or_introl eq_refl)))) as (b & vs & Eb & AR & E & L & _ & G). exists b, vs. split; auto. split; auto. unfold wids. rewrite E.
      clear - G NU. induction vs as [|v vs IH]; cbn [map]; constructor; [|apply IH; intros; apply G; right; auto]. destruct (G v (or_introl eq_refl)) as [Hs _]. apply In_nth_error in Hs. destruct Hs as (i & Ei). rewrite (NU _ _ Ei). split; [lia|]. replace (Z.to_nat (Z.of_nat i + 1 - 1)) with i by lia. exact Ei. }
    apply H. apply incl_refl.
Qed.
Print Assumptions C54_off.

(** The numbers in the file start at 1, those of the format at 0: where the last vertex is a corner
    of a face, the file names a point that is not in it. *)
Theorem C54_off_numbers : forall s a v f e, surface s a -> vnumbered s -> In f (skind s 2) -> has_edge a f e -> is_end a e v -> nth_error (skind s 0) (List.length (skind s 0) - 1) = Some v ->
  exists file, MESH_ExportToOFF (sm_m s) = Ok (1, Some file) /\ ~ off_valid file /\ ~ off_of s a 0 file.
Proof.
  intros s a v f e SU NU Hf He Hv EV. destruct (C54_off s a SU NU) as (file & E & ls & R & F2). exists file. split; auto.
  assert (X : exists l i, In l ls /\ In i l /\ i = Z.of_nat (List.length (skind s 0))).
  { pose proof (su_mesh _ _ SU) as P. pose proof (su_loops _ _ SU f Hf) as G.
    assert (Y : exists l, In l ls /\ corners s a 1 f l). { clear - F2 Hf. induction F2 as [|g l gl ll C F IH]; [contradiction|]. destruct Hf as [<-|Hf]; [exists l; cbn; auto|]. destruct (IH Hf) as (l' & H1 & H2). exists l'. cbn. auto. }
    destruct Y as (l & Hl & b & vs & Eb & AR & F). destruct (face_verts s a P f G) as (b' & vs' & Eb' & AR' & E' & _ & _ & _). rewrite Eb in Eb'. inversion Eb'. subst b'. pose proof (around_vat _ _ _ AR) as A1. pose proof (around_vat _ _ _ AR') as A2. rewrite <- A1 in A2. subst vs'.
    destruct (loop_verts (sm_t s) a f true (pa_reach _ _ P) G) as (vs' & E2 & _ & IV). change (b2z true) with 1 in E2. rewrite E' in E2. inversion E2. subst vs'. assert (HV : In v vs) by (apply IV; eauto).
    assert (Z : exists i, In i l /\ 1 <= i /\ nth_error (skind s 0) (Z.to_nat (i - 1)) = Some v). { clear - F HV. induction F as [|w i ws is [H1 H2] F IH]; [contradiction|]. destruct HV as [<-|HV]; [exists i; cbn; auto|]. destruct (IH HV) as (j & Hj & K). exists j. cbn. auto. }
    destruct Z as (i & Hi & I1 & I2). exists l, i. split; auto. split; auto. assert (ND : NoDup (skind s 0)) by apply (pa_nd _ _ P). rewrite NoDup_nth_error in ND. assert (L : (Z.to_nat (i - 1) < List.length (skind s 0))%nat) by (apply nth_error_Some; congruence). specialize (ND _ (List.length (skind s 0) - 1)%nat L ltac:(congruence)). lia. }
  destruct X as (l & i & Hl & Hi & ->). split.
  - intros (ps & ls' & R' & V). rewrite R in R'. inversion R'. subst ps ls'. specialize (V _ _ Hl Hi). rewrite map_length in V. lia.
  - intros (ls' & R' & F'). rewrite R in R'. inversion R'. subst ls'. assert (Y : exists g, corners s a 0 g l). { clear - F' Hl. induction F' as [|g k gl ll C F IH]; [contradiction|]. destruct Hl as [<-|Hl]; eauto. }
    destruct Y as (g & b & vs & _ & _ & F). assert (Z : exists w, nth_error (skind s 0) (Z.to_nat (Z.of_nat (List.length (skind s 0)) - 0)) = Some w). { clear - F Hi. induction F as [|w i ws is [H1 H2] F IH]; [contradiction|]. destruct Hi as [->|Hi]; eauto. }
    destruct Z as (w & Z). assert (L : (Z.to_nat (Z.of_nat (List.length (skind s 0)) - 0) < List.length (skind s 0))%nat) by (apply nth_error_Some; congruence). lia.
Qed.
Print Assumptions C54_off_numbers.

(** ** STL *)
Lemma shows_fixed : forall k x, shows k x (fixed k x).
Proof. intros k x. destruct (real_ok k x (fixed k x) []) as (r & E & W); [rewrite words_fixed; reflexivity|]. exists r. split; auto. rewrite split_words by constructor. exact W. Qed.
Definition texts (k : nat) (p : point) : text * text * text := let '(x, y, z) := p in (fixed k x, fixed k y, fixed k z).
Lemma shows_texts : forall k p, shows3 k p (texts k p).
Proof. intros k [[x y] z]. cbn. auto using shows_fixed. Qed.
Lemma normal_same : forall p q r, unit3 (cross (minus3 q p) (minus3 r p)) = direction (product (side p q) (side p r)).
Proof. intros [[x y] z] [[x' y'] z'] [[x'' y''] z'']. reflexivity. Qed.
Lemma solidf_line : forall w k p, solidf (line3 w k p) = let '(x, y, z) := texts k p in x ++ y ++ z.
Proof. intros w k [[x y] z]. unfold line3, texts. rewrite !solidf_app, !solidf_width, !(solidf_wordy (fixed _ _)) by apply fixed_wordy. change (solidf sp) with (@nil ascii). change (solidf nl) with (@nil ascii). cbn [app]. rewrite app_nil_r. reflexivity. Qed.
Lemma num_edges : forall s a f b, partable s a -> a_f a f = Some (true, Some b) -> MF_Num_Edges (sm_t s) f = Ok (Z.of_nat (List.length b)).
Proof. intros s a f b P E. destruct (face_rep _ _ _ _ (reach_inv _ _ (pa_reach _ _ P)) E) as (x & l & Hx & Hl & (-> & _)). unfold MF_Num_Edges, getf. rewrite Hx. cbn [bind]. rewrite Hl. cbn [bind nn]. unfold ZL. rewrite map_length. reflexivity. Qed.
Lemma stl_face_ok : forall s a f b, partable s a -> good_face a f -> a_f a f = Some (true, Some b) -> List.length b = 3%nat ->
  exists p q r n vs, around a vs b /\ map (fm_x (sm_m s)) vs = [p; q; r] /\ n = direction (product (side p q) (side p r)) /\ stl_face (sm_m s) f = Ok (str "facet normal " ++ line3 12 8 n ++ str "  outer loop" ++ nl ++
          str "    vertex " ++ line3 20 10 p ++ str "    vertex " ++ line3 20 10 q ++ str "    vertex " ++ line3 20 10 r ++ str "endloop" ++ str "endfacet").
Proof.
  intros s a f b P G Eb L3. destruct (face_verts s a P f G) as (b' & vs & Eb' & AR & E & L & EL & GV). rewrite Eb in Eb'. inversion Eb'. subst b'.
  pose proof (face_coords s f vs E L (fun v Hv => proj2 (GV v Hv))) as C. destruct vs as [|v0 [|v1 [|v2 [|v3 vs]]]]; cbn in EL; try lia. cbn [map] in C.
  exists (fm_x (sm_m s) v0), (fm_x (sm_m s) v1), (fm_x (sm_m s) v2). eexists. exists [v0; v1; v2]. split; auto. split; auto. split; [reflexivity|]. unfold stl_face. rewrite C. cbn [bind]. rewrite normal_same. reflexivity.
Qed.
Definition triangular (s : smesh) (a : amesh) : Prop := forall f b, In f (skind s 2) -> a_f a f = Some (true, Some b) -> List.length b = 3%nat.
Lemma triangles_all : forall s a, partable s a -> triangular s a -> forall l, incl l (skind s 2) -> triangles (sm_m s) l = Ok true.
Proof.
  intros s a P T. induction l as [|f l IH]; intro HL; auto. cbn [triangles]. change (fm_t (sm_m s)) with (sm_t s). assert (Hf : In f (skind s 2)) by (apply HL; cbn; auto).
  destruct (a_f a f) as [[[] [b|]]|] eqn:E.
  - rewrite (num_edges _ _ _ _ P E), (T f b Hf E). cbn [bind negb Z.eqb]. apply IH. intros x Hx. apply HL. cbn. auto.
  - exfalso. eapply (pa_faces _ _ P); eauto.
  - apply (pa_f _ _ P) in Hf. destruct Hf as (y & Hy). congruence.
  - apply (pa_f _ _ P) in Hf. destruct Hf as (y & Hy). congruence.
  - apply (pa_f _ _ P) in Hf. destruct Hf as (y & Hy). congruence.
Qed.

(** The shape of the text. *)
Definition ftext (n p q r : point) : text := str "facet normal " ++ line3 12 8 n ++ str "  outer loop" ++ nl ++
          str "    vertex " ++ line3 20 10 p ++ str "    vertex " ++ line3 20 10 q ++ str "    vertex " ++ line3 20 10 r ++ str "endloop" ++ str "endfacet".
Definition fdata (s : smesh) (a : amesh) (f : ptr) (x : point * point * point * point) : Prop :=
  let '(n, p, q, r) := x in exists b vs, a_f a f = Some (true, Some b) /\ around a vs b /\ map (fm_x (sm_m s)) vs = [p; q; r] /\ n = direction (product (side p q) (side p r)).
Definition ftext4 (x : point * point * point * point) : text := let '(n, p, q, r) := x in ftext n p q r.
Lemma stl_shape : forall s a, partable s a -> skind s 3 = [] -> (forall f, In f (skind s 2) -> good_face a f) -> triangular s a ->
  exists xs, Forall2 (fdata s a) (skind s 2) xs /\ MESH_ExportToSTL (sm_m s) = Ok (1, Some (str "solid" ++ nl ++ concat (map ftext4 xs) ++ str "endsolid")).
Proof.
  intros s a P NR GF T. unfold MESH_ExportToSTL. change (fm_r (sm_m s)) with (skind s 3). change (fm_f (sm_m s)) with (skind s 2). rewrite NR. rewrite (triangles_all s a P T) by apply incl_refl. cbn [bind negb].
  assert (H : forall l out, incl l (skind s 2) -> exists xs, Forall2 (fdata s a) l xs /\ foldM (fun out x => t <- stl_face (sm_m s) x ;; Ok (out ++ t)) out l = Ok (out ++ concat (map ftext4 xs))).
  { induction l as [|f l IH]; intros out HL.
    - exists []. split; [constructor|]. cbn. rewrite app_nil_r. reflexivity.
    - assert (Hf : In f (skind s 2)) by (apply HL; cbn; auto). destruct (GF f Hf) as (b & u & Eb & _ & _). destruct (stl_face_ok s a f b P (GF f Hf) Eb (T f b Hf Eb)) as (p & q & r & n & vs & AR & EM & EN & E).
      cbn [foldM]. rewrite E. cbn [bind]. destruct (IH (out ++ ftext n p q r)) as (xs & F & E2); [intros x Hx; apply HL; cbn; auto|]. exists ((n, p, q, r) :: xs). split; [constructor; auto; exists b, vs; auto|]. unfold ftext at 1 in E2. rewrite E2. cbn [map concat ftext4]. rewrite <- app_assoc. reflexivity. }
  destruct (H (skind s 2) [] (incl_refl _)) as (xs & F & E). exists xs. split; auto. unfold printM. rewrite E. cbn [bind app]. reflexivity.
Qed.

Theorem C54_stl : forall s a, partable s a -> skind s 3 = [] -> (forall f, In f (skind s 2) -> good_face a f) -> triangular s a ->
  exists file fs, MESH_ExportToSTL (sm_m s) = Ok (1, Some file) /\ Forall2 (facet_of s a) (skind s 2) fs /\ but_for_blanks file ([word "solid"] ++ concat fs ++ [word "endsolid"]).
Proof.
  intros s a P NR GF T. destruct (stl_shape s a P NR GF T) as (xs & F & E). eexists. exists (map (fun x => let '(n, p, q, r) := x in facet (texts 8 n) (texts 10 p) (texts 10 q) (texts 10 r)) xs). split; [exact E|]. split.
  - clear E GF. induction F as [|f x fl xs D F IH]; cbn [map]; constructor; auto. destruct x as [[[n p] q] r]. destruct D as (b & vs & Eb & AR & EM & EN). exists b, vs, p, q, r, (texts 8 n), (texts 10 p), (texts 10 q), (texts 10 r). subst n. split; [exact Eb|]. split; [exact AR|]. split; [exact EM|]. split; [reflexivity|]. split; [apply shows_texts|]. split; [apply shows_texts|]. split; apply shows_texts.
  - unfold but_for_blanks. rewrite concat_split. cbn [rev app]. fold (solidf (str "solid" ++ nl ++ concat (map ftext4 xs) ++ str "endsolid")). rewrite !solidf_app. change (solidf (str "solid")) with (word "solid"). change (solidf nl) with (@nil ascii). change (solidf (str "endsolid")) with (word "endsolid"). cbn [app concat]. f_equal. rewrite concat_app. cbn [concat]. rewrite app_nil_r. f_equal.
    clear. induction xs as [|[[[n p] q] r] xs IH]; cbn [map concat]; auto. rewrite solidf_app, IH, concat_app. f_equal. cbn [ftext4]. unfold ftext. rewrite !solidf_app, !solidf_line. destruct n as [[? ?] ?], p as [[? ?] ?], q as [[? ?] ?], r as [[? ?] ?]. unfold texts, facet, vertex3.
    change (solidf (str "facet normal ")) with (word "facet" ++ word "normal"). change (solidf (str "  outer loop")) with (word "outer" ++ word "loop"). change (solidf (str "    vertex ")) with (word "vertex"). change (solidf (str "endloop")) with (word "endloop"). change (solidf (str "endfacet")) with (word "endfacet"). change (solidf nl) with (@nil ascii).
    rewrite !concat_app. cbn [concat app]. rewrite !app_nil_r, <- !app_assoc. reflexivity.
Qed.
Print Assumptions C54_stl.

Lemma fixed_start : forall k x, fixed k x <> word "endsolid".
Proof.
  intros k x E. rewrite fixed_dec in E. assert (D : forall g n, 0 <= n -> dec g k n <> word "endsolid").
  { intros g n N H. unfold dec in H. destruct (nat_text_ok (n / 10 ^ Z.of_nat k)) as (A & _ & B); [apply Z.div_pos; [auto|apply pow10]|]. apply (f_equal (hd "x"%char)) in H. change (hd "x"%char (word "endsolid")) with "e"%char in H. destruct g; [discriminate|]. cbn [sign app] in H. destruct (nat_text (n / 10 ^ Z.of_nat k)) as [|c l]; [congruence|]. inversion A as [|? ? D _]. cbn [app hd] in H. subst c. discriminate. }
  destruct x as [g|g| |g m e].
  - eapply D; [|exact E]. lia.
  - apply (f_equal (hd "x"%char)) in E. destruct g; discriminate.
  - apply (f_equal (hd "x"%char)) in E. discriminate.
  - eapply D; [|exact E]. apply printed_nonneg.
Qed.
Lemma points_no_end : forall k p, ~ In (word "endsolid") (pwords k p).
Proof. intros k [[x y] z] [H|[H|[H|[]]]]; eapply fixed_start; eauto. Qed.
Lemma words_vertex : forall p r, words (str "    vertex " ++ line3 20 10 p ++ r) = [word "vertex"] ++ pwords 10 p ++ words r.
Proof. intros p r. change (str "    vertex " ++ line3 20 10 p ++ r) with (str "    vertex" ++ " "%char :: line3 20 10 p ++ r). rewrite words_split by reflexivity. rewrite words_line. reflexivity. Qed.
Lemma words_facet : forall pre n p q r t, words (pre ++ ftext n p q r ++ t) = words (pre ++ word "facet") ++ [word "normal"] ++ pwords 8 n ++ [word "outer"; word "loop"] ++
  ([word "vertex"] ++ pwords 10 p) ++ ([word "vertex"] ++ pwords 10 q) ++ ([word "vertex"] ++ pwords 10 r) ++ words (str "endloop" ++ str "endfacet" ++ t).
Proof.
  intros pre n p q r t. unfold ftext. rewrite <- !app_assoc.
  change (str "facet normal " ++ ?x) with (word "facet" ++ " "%char :: str "normal" ++ " "%char :: x). rewrite app_assoc, words_split by reflexivity. rewrite words_split by reflexivity. rewrite words_line.
  change (str "  outer loop" ++ nl ++ ?x) with (str "  outer loop" ++ "010"%char :: x). rewrite words_split by reflexivity. rewrite !words_vertex. rewrite <- ?app_assoc. reflexivity.
Qed.
Ltac no_word H := match type of H with In _ (_ ++ _) => apply in_app_or in H; destruct H as [H|H]; [first [eapply points_no_end; exact H | vm_compute in H; intuition discriminate]|] end.
Lemma no_end : forall xs, ~ In (word "endsolid") (words (str "endloop" ++ str "endfacet" ++ concat (map ftext4 xs) ++ str "endsolid")).
Proof.
  induction xs as [|[[[n p] q] r] xs IH]; [vm_compute; intuition discriminate|]. cbn [map concat ftext4]. rewrite <- app_assoc. rewrite app_assoc, words_facet. intro H.
  rewrite <- !app_assoc in H. repeat no_word H. exact (IH H).
Qed.

(** Nothing ends the word "endfacet": with a face in the mesh, the file has no word "endsolid". *)
Theorem C54_stl_words : forall s a, partable s a -> skind s 3 = [] -> skind s 2 <> [] -> (forall f, In f (skind s 2) -> good_face a f) -> triangular s a ->
  exists file, MESH_ExportToSTL (sm_m s) = Ok (1, Some file) /\ ~ stl_valid file.
Proof.
  intros s a P NR NF GF T. destruct (stl_shape s a P NR GF T) as (xs & F & E). eexists. split; [exact E|]. intros (name & fs & name' & W). rewrite split_words in W by constructor. cbn [rev app] in W.
  destruct xs as [|[[[n p] q] r] xs]; [inversion F; congruence|]. cbn [map concat ftext4] in W. rewrite <- app_assoc in W. change (str "solid" ++ nl ++ ?x) with (str "solid" ++ "010"%char :: x) in W. rewrite words_split in W by reflexivity. pose proof (words_facet [] n p q r (concat (map ftext4 xs) ++ str "endsolid")) as WF. cbn [app] in WF. rewrite WF in W.
  assert (H : In (word "endsolid") (word "solid" :: name ++ concat (map (fun f => let '(n, p, q, r) := f in facet n p q r) fs) ++ word "endsolid" :: name')) by (right; apply in_or_app; right; apply in_or_app; right; left; reflexivity).
  rewrite <- W in H. repeat (no_word H || (destruct H as [H|H]; [apply (f_equal (hd "x"%char)) in H; discriminate|])). exact (no_end xs H).
Qed.
Print Assumptions C54_stl_words.

(** Meshes that the formats cannot hold are refused.  The OFF file is left as it was, the STL file is
    empty afterwards. *)
Theorem C54_refused : forall s a, partable s a ->
  (skind s 3 <> [] \/ skind s 2 = [] -> MESH_ExportToOFF (sm_m s) = Ok (0, None)) /\
  (skind s 3 <> [] \/ (exists f b, In f (skind s 2) /\ a_f a f = Some (true, Some b) /\ List.length b <> 3%nat) -> MESH_ExportToSTL (sm_m s) = Ok (0, Some [])).
Proof.
  intros s a P. unfold MESH_ExportToOFF, MESH_ExportToSTL. change (fm_r (sm_m s)) with (skind s 3). change (fm_f (sm_m s)) with (skind s 2). split.
  - intros [H|H]; [destruct (skind s 3); [contradiction|reflexivity]|]. rewrite H. destruct (skind s 3); reflexivity.
  - intro H. destruct (skind s 3) as [|r0 rl] eqn:ER; [|reflexivity]. destruct H as [H|H]; [contradiction|]. destruct H as (f & b & Hf & Eb & NL).
    assert (X : forall l, incl l (skind s 2) -> In f l -> triangles (sm_m s) l = Ok false).
    { induction l as [|g l IH]; intros HL Hl; [contradiction|]. cbn [triangles]. change (fm_t (sm_m s)) with (sm_t s). assert (Hg : In g (skind s 2)) by (apply HL; cbn; auto).
      destruct (Z.eq_dec g f) as [->|D].
      - rewrite (num_edges _ _ _ _ P Eb). cbn [bind]. replace (Z.of_nat (List.length b) =? 3) with false by lia. reflexivity.
      - destruct Hl as [Hl|Hl]; [contradiction|]. apply (pa_f _ _ P) in Hg. destruct Hg as ([c|] & Hc); [|exfalso; eapply (pa_faces _ _ P); eauto]. rewrite (num_edges _ _ _ _ P Hc). cbn [bind]. destruct (negb _); [reflexivity|]. apply IH; auto. intros x Hx. apply HL. cbn. auto. }
    rewrite (X (skind s 2) (incl_refl _) Hf). reflexivity.
Qed.
Print Assumptions C54_refused.

(** ** Examples: three triangles, a square, two tetrahedra *)
Lemma strip_good : forall f, In f [13; 14; 15] -> good_face (arun amesh0 strip) f.
Proof. intros f [<-|[<-|[<-|[]]]]; apply goodfb_ok; vm_compute; reflexivity. Qed.
Lemma strip_surface : surface (strip_mesh clean) (arun amesh0 strip).
Proof. constructor; [apply strip_ok|reflexivity|discriminate|exact strip_good|reflexivity]. Qed.
Lemma strip_numbered : vnumbered (strip_mesh clean).
Proof. intros i v E. destruct i as [|[|[|[|[|i]]]]]; cbn in E; try (inversion E; reflexivity). destruct i; discriminate. Qed.
Lemma strip_triangular : triangular (strip_mesh clean) (arun amesh0 strip).
Proof. intros f b [<-|[<-|[<-|[]]]] E; vm_compute in E; inversion E; reflexivity. Qed.
Example C54_off_ex : surface (strip_mesh clean) (arun amesh0 strip) /\ vnumbered (strip_mesh clean) /\
  match MESH_ExportToOFF (sm_m (strip_mesh clean)) with
  | Ok (1, Some file) => option_map snd (read_off file) = Some [[1; 2; 3]; [2; 4; 3]; [4; 5; 3]]
  | _ => False
  end.
Proof. split; [exact strip_surface|]. split; [exact strip_numbered|]. vm_compute. reflexivity. Qed.
Example C54_off_numbers_ex : surface (strip_mesh clean) (arun amesh0 strip) /\ vnumbered (strip_mesh clean) /\ In 15 (skind (strip_mesh clean) 2) /\
  has_edge (arun amesh0 strip) 15 11 /\ is_end (arun amesh0 strip) 11 5 /\ nth_error (skind (strip_mesh clean) 0) (List.length (skind (strip_mesh clean) 0) - 1) = Some 5.
Proof.
  split; [exact strip_surface|]. split; [exact strip_numbered|]. split; [cbn; auto|]. split; [|split; [|reflexivity]].
  - exists [(11, true); (12, true); (10, false)]. split; [vm_compute; reflexivity|cbn; auto].
  - exists 4, 5. split; [vm_compute; reflexivity|auto].
Qed.
(** Full claim: the file written is an OFF file of the mesh. *)
Theorem C54_off_refuted : exists s a file, surface s a /\ vnumbered s /\ MESH_ExportToOFF (sm_m s) = Ok (1, Some file) /\ ~ off_valid file /\ ~ off_of s a 0 file.
Proof.
  destruct C54_off_numbers_ex as (SU & NU & H1 & H2 & H3 & H4). destruct (C54_off_numbers _ _ 5 15 11 SU NU H1 H2 H3 H4) as (file & E & V & O).
  exists (strip_mesh clean), (arun amesh0 strip), file. split; [exact SU|]. split; [exact NU|]. split; [exact E|]. split; [exact V|exact O].
Qed.
Print Assumptions C54_off_refuted.

Example C54_stl_ex : partable (strip_mesh clean) (arun amesh0 strip) /\ skind (strip_mesh clean) 3 = [] /\ skind (strip_mesh clean) 2 <> [] /\ (forall f, In f (skind (strip_mesh clean) 2) -> good_face (arun amesh0 strip) f) /\ triangular (strip_mesh clean) (arun amesh0 strip).
Proof. split; [apply strip_ok|]. split; [reflexivity|]. split; [discriminate|]. split; [exact strip_good|exact strip_triangular]. Qed.
(** Full claim: the file written is an STL file. *)
Theorem C54_stl_refuted : exists s a file, partable s a /\ skind s 3 = [] /\ (forall f, In f (skind s 2) -> good_face a f) /\ triangular s a /\ MESH_ExportToSTL (sm_m s) = Ok (1, Some file) /\ ~ stl_valid file.
Proof.
  destruct C54_stl_ex as (P & H1 & H2 & H3 & H4). destruct (C54_stl_words _ _ P H1 H2 H3 H4) as (file & E & V).
  exists (strip_mesh clean), (arun amesh0 strip), file. split; [exact P|]. split; [exact H1|]. split; [exact H3|]. split; [exact H4|]. split; [exact E|exact V].
Qed.
Print Assumptions C54_stl_refuted.

(** Full claim: an export that fails leaves the file as it was. *)
Theorem C54_emptied_refuted : exists s a, partable s a /\ MESH_ExportToSTL (sm_m s) = Ok (0, Some []).
Proof. exists (tets_mesh clean), (arun amesh0 tets). split; [apply tets_ok|]. apply (proj2 (C54_refused _ _ (tets_ok clean))). left. discriminate. Qed.
Print Assumptions C54_emptied_refuted.
Example C54_refused_ex : partable (tets_mesh clean) (arun amesh0 tets) /\ skind (tets_mesh clean) 3 <> [].
Proof. split; [apply tets_ok|discriminate]. Qed.

(** A square is refused as well. *)
Definition square : list top := [TNewV; TNewV; TNewV; TNewV; TNewE; TSetVertex 5 false 1; TSetVertex 5 true 2; TNewE; TSetVertex 6 false 2; TSetVertex 6 true 3; TNewE; TSetVertex 7 false 3; TSetVertex 7 true 4;
  TNewE; TSetVertex 8 false 4; TSetVertex 8 true 1; TNewF; TSetEdges 9 [(5, true); (6, true); (7, true); (8, true)]].
Definition square_mesh : smesh := mkSM (mkFM (tget square) (fun p => (p mod 4, p)) xyz (fun p => p) [1; 2; 3; 4] [5; 6; 7; 8] [9] [] []) clean [].
Example C54_refused_ex2 : partable square_mesh (arun amesh0 square) /\ exists f b, In f (skind square_mesh 2) /\ a_f (arun amesh0 square) f = Some (true, Some b) /\ List.length b <> 3%nat.
Proof.
  split; [apply partableb_ok; [apply (reach_tget square); vm_compute; reflexivity|vm_compute; reflexivity]|].
  exists 9, [(5, true); (6, true); (7, true); (8, true)]. split; [cbn; auto|]. split; [vm_compute; reflexivity|discriminate].
Qed.
