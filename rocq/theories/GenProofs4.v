(** Structured meshes in 3D: regions. *)
From Coq Require Import ZArith List Lia Bool Arith ZifyBool ZifyNat Permutation.
From Verif Require Import Base BaseProofs ListSpec HashProofs HashProofs2 AttModel AttProps ParModel ParProps TopoModel TopoSpec TopoProofs TopoProofs2 TopoProofs3 TopoProofs4 TopoProofs5 TopoProofs6 TopoProofs7 TopoProps TopoProps2 TopoProps3 ModProofs ModProofs2 CellModel CellSpec CellProofs CellProofs2 CellProofs3 CellProofs4 CellProofs5 CellProofs6 BuildModel BuildProofs BuildProofs2 BuildProofs3 BuildProofs4 BuildProofs5 BuildProps GenModel GenSpec GenProofs GenProofs2 GenProofs3.
Import ListNotations.
Open Scope Z_scope.

(** ** What making a region leaves alone *)
Ltac unb H := match type of H with
  | bind ?e _ = Ok _ => let E := fresh "E" in let y := fresh "y" in destruct e as [y| | |] eqn:E; cbn [bind] in H; [|discriminate..]; unb H
  | (if ?b then _ else _) = Ok _ => destruct b; try discriminate; unb H
  | (let '(_, _) := (_, _) in _) = Ok _ => cbv beta iota in H; unb H
  | (let '(_, _) := ?p in _) = Ok _ => let y := fresh "y" in let z := fresh "z" in destruct p as [y z]; unb H
  | Ok _ = Ok _ => inversion H; clear H; subst
  | _ => idtac end.
Lemma foldM_inv : forall A B (I : A -> Prop) (g : A -> B -> result A) l s s', (forall s x s', I s -> g s x = Ok s' -> I s') -> I s -> foldM g s l = Ok s' -> I s'.
Proof.
  induction l as [|x l IH]; intros s s' H Hs E; cbn [foldM] in E; unb E; eauto.
Qed.
Lemma threadM_inv : forall A B (I : topo -> Prop) (g : topo -> A -> result (topo * B)) l t t' ys, (forall t x t' y, I t -> g t x = Ok (t', y) -> I t') -> I t -> threadM g t l = Ok (t', ys) -> I t'.
Proof.
  induction l as [|x l IH]; intros t t' ys H Hs E; cbn [threadM] in E; unb E; auto. eapply IH; [exact H| |eassumption]. eapply H; eauto.
Qed.
Lemma add_e_frame : forall t v e t', MV_Add_Edge t v e = Ok t' -> trs t' = trs t.
Proof. intros t v e t' H. unfold MV_Add_Edge in H. unb H; reflexivity. Qed.
Lemma find_edge_frame : forall t p q t' x, find_edge t p q = Ok (t', x) -> trs t' = trs t.
Proof.
  intros t p q t' x H. unfold find_edge, ME_New in H. unb H; auto. unfold ME_Set_Vertex in *. unb E0. unb E1. apply add_e_frame in E0, E1. rewrite E1. cbn. rewrite E0. reflexivity.
Qed.
Lemma add_f_frame : forall t e f t', ME_Add_Face t e f = Ok t' -> trs t' = trs t.
Proof. intros t v e t' H. unfold ME_Add_Face in H. unb H; reflexivity. Qed.
Lemma set_e_frame : forall t f n es ds t', MF_Set_Edges t f n es ds = Ok t' -> trs t' = trs t.
Proof.
  intros t f n es ds t' H. unfold MF_Set_Edges in H. unb H. eapply (foldM_inv _ _ (fun t1 => trs t1 = trs t)) in H; auto. intros s x s' Hs E0. cbv beta in E0. unb E0. apply add_f_frame in E0. rewrite E0. auto.
Qed.
Lemma std_face_frame : forall mv re t tp t' x, std_face mv re t tp = Ok (t', x) -> trs t' = trs t.
Proof.
  intros mv re t [[a b] [c d]] t' x H. unfold std_face, MF_New in H. unb H; auto. match goal with K : MF_Set_Edges _ _ _ _ _ = _ |- _ => apply set_e_frame in K; rewrite K end. reflexivity.
Qed.
Lemma set_r_frame : forall t r n fs ds t' q, MR_Set_Faces t r n fs ds = Ok t' -> q <> r -> trs t' q = trs t q.
Proof.
  intros t r n fs ds t' q H Hq. unfold MR_Set_Faces in H. unb H. eapply (foldM_inv _ _ (fun t1 => trs t1 q = trs t q)) in E0; auto.
  - unfold MR_Update_ElementType in H. unb H. rewrite <- E0. cbn. unfold zupd. replace (q =? r) with false by lia. auto.
  - intros s x s' Hs E1. cbv beta in E1. unb E1. unfold MF_Add_Region in E1. unb E1; cbn; unfold zupd; replace (q =? r) with false by lia; auto.
  - cbn. unfold zupd. replace (q =? r) with false by lia; auto.
Qed.
Lemma region_frame : forall t r mv t' q, MR_Set_Vertices t r mv = Ok t' -> q <> r -> trs t' q = trs t q.
Proof.
  intros t r mv t' q H Hq. unfold MR_Set_Vertices in H. unb H. apply (set_r_frame _ _ _ _ _ _ q) in H; auto. rewrite H.
  eapply (threadM_inv _ _ (fun t3 => trs t3 = trs t)) in E0; auto. eapply (threadM_inv _ _ (fun t3 => trs t3 = trs t)) in E1; auto. congruence.
  - intros t3 x t4 u K F. apply std_face_frame in F. congruence.
  - intros t3 x t4 u K F. unfold std_edge in F. unb F. apply find_edge_frame in F. congruence.
Qed.

Lemma typed_keep : forall t a t' a' q, reach t a -> reach t' a' -> trs t' q = trs t q -> (forall f, a_f a' f = a_f a f) -> typed t q -> typed t' q.
Proof.
  intros t a t' a' q R R' E HF (x & l & ns & H1 & H2 & H3 & H4). exists x, l, ns. rewrite E. split; auto. split; auto. split; auto. eapply F2_imp; [|exact H3]. intros f m (y & es & Y1 & Y2 & Y3).
  pose proof (i_f _ _ (reach_inv _ _ R) f) as A. pose proof (i_f _ _ (reach_inv _ _ R') f) as B. rewrite HF, <- A, Y1 in B. cbn [option_map] in B. destruct (tfs t' f) as [y'|]; cbn [option_map] in B; [|discriminate]. assert (B1 : fview y' = fview y) by congruence. unfold fview in B1. rewrite Y2 in B1. cbn [option_map] in B1. destruct (f_edges y') as [es'|] eqn:Y'; cbn [option_map] in B1; [|discriminate]. inversion B1 as [[B2 B3]].
  exists y', es'. split; auto. split; auto. rewrite <- Y3. apply (f_equal (map fst)) in B3. rewrite !vw_fst in B3. congruence.
Qed.
(** ** Loops the other way round *)
Lemma rotation_turned : forall b c, rotation b c -> rotation (turned b) (turned c).
Proof. intros b c H. unfold turned. apply rotation_rev, rotation_map; auto. Qed.
Lemma turned_twice : forall b, turned (turned b) = b.
Proof. intros b. unfold turned. rewrite map_rev, rev_involutive, map_map. rewrite <- (map_id b) at 2. apply map_ext. intros [e d]. cbn. rewrite negb_involutive. auto. Qed.
Lemma outward_flip : forall a f d p q r s, outward a (f, d) [p; q; r; s] -> outward a (f, negb d) [p; s; r; q].
Proof.
  intros a f d p q r s (fb & u & c & H1 & H2 & H3 & (L & H4)). cbn [fst snd] in *. destruct c as [|[e0 d0] [|[e1 d1] [|[e2 d2] [|[e3 d3] [|]]]]]; try discriminate L. exists fb, u, (turned [(e0, d0); (e1, d1); (e2, d2); (e3, d3)]). cbn [fst snd]. split; auto. split; auto. split.
  - apply rotation_turned in H3. destruct d; cbn [walk negb] in *; auto. rewrite turned_twice in H3. auto.
  - split; auto. cbn [turned map rev app fst snd].
    destruct (H4 0%nat _ _ eq_refl) as (x0 & v0 & w0 & X0 & V0 & W0 & S0 & T0). destruct (H4 1%nat _ _ eq_refl) as (x1 & v1 & w1 & X1 & V1 & W1 & S1 & T1). destruct (H4 2%nat _ _ eq_refl) as (x2 & v2 & w2 & X2 & V2 & W2 & S2 & T2). destruct (H4 3%nat _ _ eq_refl) as (x3 & v3 & w3 & X3 & V3 & W3 & S3 & T3).
    cbn in V0, W0, V1, W1, V2, W2, V3, W3. intros i e d' Hi. destruct i as [|[|[|[|i]]]]; cbn [nth_error] in Hi; [| | | |destruct i; discriminate]; inversion Hi; subst e d'; eexists _, _, _; (split; [eassumption|split; [reflexivity|split; [reflexivity|]]]).
    + inversion V3; inversion W3; subst. destruct d3; cbn in *; auto.
    + inversion V2; inversion W2; subst. destruct d2; cbn in *; auto.
    + inversion V1; inversion W1; subst. destruct d1; cbn in *; auto.
    + inversion V0; inversion W0; subst. destruct d0; cbn in *; auto.
Qed.
Lemma rot4 : forall A (p q r s : A) l, rotation [p; q; r; s] l -> l = [p; q; r; s] \/ l = [q; r; s; p] \/ l = [r; s; p; q] \/ l = [s; p; q; r].
Proof.
  intros A p q r s l (u & v & E & ->). destruct u as [|u0 [|u1 [|u2 [|u3 [|]]]]]; cbn in E; inversion E; subst; cbn; auto.
Qed.
Lemma map_inj_on : forall A B (g : A -> B) l l', (forall x y, In x l -> In y l' -> g x = g y -> x = y) -> map g l = map g l' -> l = l'.
Proof.
  induction l as [|x l IH]; destruct l' as [|y l']; cbn [map]; intros H E; auto; try discriminate. inversion E. f_equal. apply H; auto; left; auto. apply IH; auto. intros u v Hu Hv. apply H; right; auto.
Qed.

(** The faces of a cell in the order of the loops of the shape. *)
Definition wl (p : point) : list ((axis * point) * bool) :=
  [((AZ, p), false); ((AZ, step AZ p), true); ((AY, p), true); ((AX, step AX p), true); ((AY, step AY p), false); ((AX, p), false)].
Lemma wl_walls : forall p x d, In (x, d) (wl p) <-> walls_of p x d.
Proof.
  intros p [d q] s. unfold walls_of. cbn [fst snd]. split.
  - intros H. cbn in H. repeat (destruct H as [H|H]; [inversion H; subst; cbn; auto|]). destruct H.
  - intros [(-> & ->)|(-> & ->)]; destruct d; cbn; auto 10.
Qed.
Lemma walls_cell : forall p q x d, walls_of p x d -> walls_of q x d -> p = q.
Proof.
  intros [[i j] k] [[i' j'] k'] [d [[u v] w]] s. unfold walls_of. cbn [fst snd]. intros [(A & B)|(A & B)] [(C & D)|(C & D)]; destruct d; cbn [step along negb] in *; inversion A; inversion C; subst; try discriminate; f_equal; try f_equal; lia.
Qed.
(** Points of a loop of the shape. *)
Definition pl (p : point) (L : list nat) : list point := map (fun i => nth i (corners_of p) p) L.
Definition turn4 {A} (l : list A) : list A := match l with [p; q; r; s] => [p; s; r; q] | _ => l end.
Lemma wall_loop : forall p k L x d, nth_error (s_loops hexahedron) k = Some L -> nth_error (wl p) k = Some (x, d) -> rotation (if d : bool then loop_of x else turn4 (loop_of x)) (pl p L).
Proof.
  intros [[i j] k0] k L x d H1 H2. do 6 (destruct k as [|k]; [cbn in H1, H2; inversion H1; inversion H2; subst; cbn [fst snd loop_of plane step turn4 pl corners_of map nth];
    first [exists [], (pl (i, j, k0) L); reflexivity
          |eexists [], _; split; reflexivity
          |eexists [_], [_; _; _]; split; reflexivity|eexists [_; _], [_; _]; split; reflexivity|eexists [_; _; _], [_]; split; reflexivity]|]). destruct k; discriminate.
Qed.
Lemma loop_wall : forall p k L x d, nth_error (s_loops hexahedron) k = Some L -> rotation (if d : bool then loop_of x else turn4 (loop_of x)) (pl p L) -> nth_error (wl p) k = Some (x, d).
Proof.
  intros [[i j] k0] k L [ax [[u v] w]] d H1 H2. do 6 (destruct k as [|k]; [cbn in H1; inversion H1; subst; clear H1; destruct ax, d; cbn [fst snd loop_of plane step turn4 pl corners_of map nth] in H2; apply rot4 in H2; destruct H2 as [E|[E|[E|E]]]; inversion E; try lia; cbn [wl step nth_error]; repeat f_equal; lia|]). destruct k; discriminate.
Qed.
