(** Two layers: the top of prisms and hexahedra; vertices and edges of prisms. *)
From Coq Require Import ZArith List Lia Bool Arith ZifyBool ZifyNat Permutation.
From Verif Require Import Base BaseProofs ListSpec HashProofs AttModel AttProps ParModel ParProps TopoModel TopoSpec TopoProofs TopoProofs2 TopoProofs3 TopoProofs4 TopoProofs5 TopoProofs6 TopoProofs7 TopoProps TopoProps2 TopoProps3 ModProofs CellModel CellSpec CellProofs CellProofs2 CellProofs3.
Import ListNotations.
Open Scope Z_scope.

Lemma rot3 : forall (L : list nat) x y z (f : nat -> ptr), L = [x; y; z] -> forall vs, rotation (map f L) vs -> vs = [f x; f y; f z] \/ vs = [f y; f z; f x] \/ vs = [f z; f x; f y].
Proof. intros L x y z f -> vs H. apply rotation_map_inv in H. destruct H as (w & H & ->). apply rotation_rotl in H; [|discriminate]. destruct H as (k & Hk & ->). cbn in Hk. destruct k as [|[|[|]]]; try lia; cbn; auto. Qed.
Lemma rot4 : forall (L : list nat) x y z u (f : nat -> ptr), L = [x; y; z; u] -> forall vs, rotation (map f L) vs -> vs = [f x; f y; f z; f u] \/ vs = [f y; f z; f u; f x] \/ vs = [f z; f u; f x; f y] \/ vs = [f u; f x; f y; f z].
Proof. intros L x y z u f -> vs H. apply rotation_map_inv in H. destruct H as (w & H & ->). apply rotation_rotl in H; [|discriminate]. destruct H as (k & Hk & ->). cbn in Hk. destruct k as [|[|[|[|]]]]; try lia; cbn; auto. Qed.

Definition joined t (v : ptr) := fun u => e <- MVs_CommonEdge t v u ;; Ok (negb (e =? NULL)).
Lemma joined_ok : forall t a s b ws Ls i j, reach t a -> In s std -> cverts a s ws -> Permutation Ls (s_loops s) -> faces_as a b ws Ls -> chordless a b ws ->
  (i < s_nv s)%nat -> (j < s_nv s)%nat -> i <> j -> joined t (W ws i) (W ws j) = Ok (adjb s i j).
Proof.
  intros t a s b ws Ls i j R HS CV PL FA CH Hi Hj N. pose proof (shapes_ok s HS) as SH. unfold joined. destruct (adjb s i j) eqn:E.
  destruct (common_adj t a s b ws Ls R CV PL FA i j Hi Hj N E) as (e & -> & Ne & _). cbn [bind]. rewrite (proj2 (Z.eqb_neq _ _) Ne). auto.
  rewrite (common_chord t a s b ws Ls R SH CV PL FA i j CH Hi Hj N E). auto.
Qed.
Ltac lents := repeat match goal with |- context [lent ?l ?i] => let x := eval vm_compute in (Z.to_nat i) in change (lent l i) with (Ok (nth x l NULL)); cbn [nth bind] end.
Lemma top3 : forall t p x y z fv, joined t p x = Ok true -> joined t p y = Ok false -> joined t p z = Ok false -> fv = [x; y; z] \/ fv = [y; z; x] \/ fv = [z; x; y] ->
  exists i, first_i (joined t p) fv (zrange 0 3) = Ok (Some i) /\ lent fv i = Ok x /\ lent fv (Z.rem (i + 1) 3) = Ok y /\ lent fv (Z.rem (i + 2) 3) = Ok z.
Proof.
  intros t p x y z fv P3 P4 P5 H. change (zrange 0 3) with [0; 1; 2]. destruct H as [->|[->| ->]]; [exists 0|exists 2|exists 1]; (split; [|split; [reflexivity|split; reflexivity]]); cbn [first_i]; do 3 (lents; rewrite ?P3, ?P4, ?P5; cbn [bind]); auto.
Qed.
Lemma top4 : forall t p x y z u fv, joined t p x = Ok true -> joined t p y = Ok false -> joined t p z = Ok false -> joined t p u = Ok false -> fv = [x; y; z; u] \/ fv = [y; z; u; x] \/ fv = [z; u; x; y] \/ fv = [u; x; y; z] ->
  exists i, first_i (joined t p) fv (zrange 0 4) = Ok (Some i) /\ lent fv i = Ok x /\ lent fv (Z.rem (i + 1) 4) = Ok y /\ lent fv (Z.rem (i + 2) 4) = Ok z /\ lent fv (Z.rem (i + 3) 4) = Ok u.
Proof.
  intros t p x y z u fv P3 P4 P5 P6 H. change (zrange 0 4) with [0; 1; 2; 3]. destruct H as [->|[->|[->| ->]]]; [exists 0|exists 3|exists 2|exists 1]; (split; [|split; [reflexivity|split; [reflexivity|split; reflexivity]]]); cbn [first_i]; do 4 (lents; rewrite ?P3, ?P4, ?P5, ?P6; cbn [bind]); auto.
Qed.

(** ** The vertices of a cell are the ends of its edges *)

Lemma std_cover : forall s i, In s std -> (i < s_nv s)%nat -> exists L, In L (s_loops s) /\ In i L.
Proof.
  assert (K : forallb (fun s => forallb (fun i => existsb (fun L => existsb (Nat.eqb i) L) (s_loops s)) (seq 0 (s_nv s))) std = true) by (vm_compute; reflexivity).
  intros s i HS Hi. rewrite forallb_forall in K. specialize (K s HS). rewrite forallb_forall in K. specialize (K i ltac:(apply in_seq; lia)). apply existsb_exists in K. destruct K as (L & HL & K). apply existsb_exists in K. destruct K as (j & Hj & E). apply Nat.eqb_eq in E. subst j. eauto.
Qed.
Lemma cell_verts : forall a s b ws Ls v, In s std -> cverts a s ws -> Permutation Ls (s_loops s) -> faces_as a b ws Ls -> In v ws <-> exists e, cell_edge a b e /\ is_end a e v.
Proof.
  intros a s b ws Ls v HS (L & ND & V) PL FA. pose proof (shapes_ok s HS) as SH. split.
  - intros Hv. apply (In_nth _ _ NULL) in Hv. destruct Hv as (i & Hi & <-). destruct (std_cover s i HS ltac:(lia)) as (K & HK & HI). apply (Permutation_in _ (Permutation_sym PL)) in HK. destruct (fa_In a b ws Ls FA K HK) as (f & d & Hf & HO).
    assert (X : In (W ws i) (map (W ws) K)) by (apply in_map; auto). rewrite (outward_ends _ _ _ _ _ HO) in X. destruct X as (e & He & HE). exists e. split; auto. exists f, d. auto.
  - intros (e & (f & d & Hf & He) & HE). destruct (fa_In' a b ws Ls FA f d Hf) as (K & HK & HO). assert (X : In v (map (W ws) K)) by (rewrite (outward_ends _ _ _ _ _ HO); eauto). apply in_map_iff in X. destruct X as (i & <- & Hi). apply nth_In. destruct (Ls_ok s Ls SH PL K HK) as (_ & LT & _). apply LT in Hi. lia.
Qed.
Lemma chordless_to : forall a s b ws Ls ws' Ls', In s std -> cverts a s ws -> Permutation Ls (s_loops s) -> faces_as a b ws Ls -> cverts a s ws' -> Permutation Ls' (s_loops s) -> faces_as a b ws' Ls' -> chordless a b ws -> chordless a b ws'.
Proof.
  intros a s b ws Ls ws' Ls' HS C1 P1 F1 C2 P2 F2 H e u w Hu Hw. apply H. rewrite (cell_verts a s b ws Ls u HS C1 P1 F1), <- (cell_verts a s b ws' Ls' u HS C2 P2 F2). auto. rewrite (cell_verts a s b ws Ls w HS C1 P1 F1), <- (cell_verts a s b ws' Ls' w HS C2 P2 F2). auto.
Qed.

(** ** Prisms *)

Lemma prism_ok : forall t a r b ws, reach t a -> a_r a r = Some (true, Some b) -> cell a prism b ws -> chordless a b ws ->
  exists vs es k, prism_vertices t r (map fst b) = Ok vs /\ find_kinds t (map fst b) = Ok k /\ nquads k = 3 /\ ntris k = 2 /\ prism_edges t r k = Ok es /\ cell a prism b vs /\ edges_of a prism vs es.
Proof.
  intros t a r b ws R Hr C CH0. destruct (region_rep t a r b R Hr) as (x & Hx & Hl & HD). pose proof C as (L0 & N0 & V0 & U & Ls & PL & FA). pose proof (F2_length _ _ _ _ _ FA) as EL. pose proof (Permutation_length PL) as EP. cbn in EP.
  assert (HS : In prism std) by (cbn; auto). pose proof (shapes_ok _ HS) as SH.
  destruct (kinds_prism t a b ws Ls R FA (Permutation_map (@length nat) PL)) as (i & j & k & Hi & Hj & Hij & Li & Lj & KE & KT0 & KI0 & KT1 & KI1 & KN & KM).
  destruct (nth i b dflt) as [f0 d0] eqn:E0. destruct (nth j b dflt) as [f1 d1] eqn:E1. cbn [fst] in *.
  destruct (base t a prism b ws Ls i f0 d0 R HS) as (ws' & Ls' & es & CV & PL' & FA' & LL & LE & H0 & Q1 & Q2 & Q3 & Q4 & Q5); auto. split; auto. lia.
  assert (CH : chordless a b ws'). { apply (chordless_to a prism b ws Ls ws' Ls' HS); auto. split; auto. }
  cbn [hd s_loops prism] in H0. change (bot prism) with [0; 1; 2]%nat in *. cbn [map] in *.
  assert (O1 : outward a (f1, d1) (map (W ws') (nth j Ls' []))) by (rewrite <- E1; apply (F2_nth _ _ _ _ _ dflt [] j FA'); lia).
  assert (K1 : nth j Ls' [] = [3; 4; 5]%nat).
  { assert (I1 : In (nth j Ls' []) (s_loops prism)) by (eapply Permutation_in; [exact PL'|]; apply nth_In; lia). assert (LJ : length (nth j Ls' []) = 3%nat) by (rewrite LE by lia; auto). cbn [s_loops prism] in I1. destruct I1 as [I1|[I1|I1]]; auto.
    exfalso. apply (nth_other _ Ls' i j [] (Ls_nodup _ _ SH PL')); try lia. congruence. exfalso. clear -I1 LJ. repeat (destruct I1 as [I1|I1]; [rewrite <- I1 in LJ; discriminate|]). destruct I1. }
  rewrite K1 in O1.
  destruct (face_query t a f1 d1 _ d1 R O1) as (fv & es1 & F1 & _ & F3 & _). discriminate. replace (Bool.eqb d1 d1) with true in F3 by (destruct d1; auto). cbn [orient] in F3. apply (rot3 _ _ _ _ _ eq_refl) in F3.
  assert (ND : NoDup (map (W ws') [3; 4; 5]%nat)). { apply (map_W_nodup a prism ws' CV). repeat constructor; cbn; intuition discriminate. cbn. intros; lia. }
  destruct (face_query_at t a f1 d1 _ d1 (W ws' 3) R O1 ND) as (fv' & fe & _ & G2 & G3 & G4 & G5 & _). cbn; auto. apply (W_nn t a prism ws' R CV). cbn; lia.
  replace (Bool.eqb d1 d1) with true in G3 by (destruct d1; auto). cbn [orient] in G3. apply rotation_unique in G3; auto. subst fv'. cbn [map] in G5. apply eloop3 in G5. destruct G5 as (g0 & g1 & g2 & -> & M0 & M1 & M2).
  assert (JA : forall q, (q < 6)%nat -> q <> 0%nat -> joined t (W ws' 0) (W ws' q) = Ok (adjb prism 0 q)) by (intros q Hq Hn; apply (joined_ok t a prism b ws' Ls' 0 q R HS CV PL' FA' CH); cbn; lia).
  destruct (top3 t (W ws' 0) _ _ _ fv (JA 3%nat ltac:(lia) ltac:(lia)) (JA 4%nat ltac:(lia) ltac:(lia)) (JA 5%nat ltac:(lia) ltac:(lia)) F3) as (p & T0 & T1 & T2 & T3).
  assert (D0 : MR_FaceDir_i t r (itri0 k) = Ok (b2z d0)) by (rewrite KI0, HD by lia; rewrite E0; auto). assert (D1 : MR_FaceDir_i t r (itri1 k) = Ok (b2z d1)) by (rewrite KI1, HD by lia; rewrite E1; auto).
  apply eloop3 in Q3. destruct Q3 as (e0 & e1 & e2 & -> & J0 & J1 & J2).
  assert (CA : forall i, (i < 3)%nat -> exists e, MVs_CommonEdge t (W ws' i) (W ws' (3 + i)) = Ok e /\ e <> NULL /\ joins a e (W ws' i) (W ws' (3 + i))). { intros q Hq. apply (common_adj t a prism b ws' Ls' R CV PL' FA'); cbn; try lia. destruct q as [|[|[|]]]; try lia; reflexivity. }
  destruct (CA 0%nat) as (l0 & C0 & N0' & J4); [lia|]. destruct (CA 1%nat) as (l1 & C1 & N1' & J5); [lia|]. destruct (CA 2%nat) as (l2 & C2 & N2' & J6); [lia|]. cbn [plus] in *.
  exists ws', [e0; e1; e2; g0; g1; g2; l0; l1; l2], k. split; [|split; [|split; [|split; [|split; [|split]]]]]; auto.
  - unfold prism_vertices. rewrite KE. cbn [bind]. rewrite D0. cbn [bind]. rewrite dir_not, KT0, Q1. cbn [bind]. rewrite D1. cbn [bind]. rewrite KT1, F1. cbn [bind]. change (lent [W ws' 0%nat; W ws' 1%nat; W ws' 2%nat] 0) with (Ok (W ws' 0)). cbn [bind]. fold (joined t (W ws' 0)). rewrite T0. cbn [bind]. rewrite T1. cbn [bind]. rewrite T2. cbn [bind]. rewrite T3. cbn [bind app]. f_equal. apply (W_all a prism ws' CV 6 eq_refl).
  - unfold prism_edges. rewrite D0. cbn [bind]. rewrite dir_not, KT0, Q2. cbn [bind]. rewrite D1. cbn [bind]. rewrite KT1. unfold two_layers. change (lent [e0; e1; e2] 0) with (Ok e0). cbn [bind]. rewrite (Q5 0%nat ltac:(cbn; lia) : bot_vertex t f0 (b2z d0) e0 = _). cbn [bind]. rewrite F1. cbn [bind]. fold (joined t (W ws' 0)). rewrite T0. cbn [bind]. rewrite T1. cbn [bind]. rewrite C0. cbn [bind]. rewrite G2. cbn [bind app].
    change (zrange 1 3) with [1; 2]. cbn [foldM]. unfold lat_step. cbn [negb]. change (lent [e0; e1; e2; g0; g1; g2; l0] 1) with (Ok e1). cbn [bind]. rewrite (Q5 1%nat ltac:(cbn; lia) : bot_vertex t f0 (b2z d0) e1 = _). cbn [bind]. rewrite T2. cbn [bind]. rewrite C1. cbn [bind]. replace (l1 =? NULL) with false by (symmetry; apply Z.eqb_neq; auto). cbn [bind app negb].
    change (lent [e0; e1; e2; g0; g1; g2; l0; l1] 2) with (Ok e2). cbn [bind]. rewrite (Q5 2%nat ltac:(cbn; lia) : bot_vertex t f0 (b2z d0) e2 = _). cbn [bind]. rewrite T3. cbn [bind]. rewrite C2. cbn [bind]. replace (l2 =? NULL) with false by (symmetry; apply Z.eqb_neq; auto). cbn [bind app negb]. auto.
  - eapply cell_intro; eauto.
  - unfold edges_of. cbn [s_edges prism]. repeat constructor; cbn [fst snd]; auto.
Qed.
