(** C55: the connections of the ranks (src/par/MESH_BuildConnection.c). *)
From Coq Require Import ZArith List Lia Bool Arith ZifyBool ZifyNat.
From Verif Require Import Base BaseProofs MeshModel AttModel TopoModel ParModel ParProps CommModel CommProofs CommProofs2 LabelModel GidModel ConnModel ConnProofs.
Import ListNotations.
Open Scope Z_scope.

(** ** Specification *)

(** The table of flags of rank [p] of [n]: one unsigned int for every rank. *)
Definition table_ok (n p : Z) (m : pmesh) : Prop :=
  mypartn m = p /\ numpartns m = n /\ exists f, pflags m = Some f /\ Z.of_nat (length f) = n /\ forall w, In w f -> 0 <= w < 2 ^ 32.
(** Vertex [v] counts, that is, may be on other ranks too. *)
Definition outer (x : crank) (v : ptr) : Prop := In v (c_vs x) /\ c_pt x v <> PINTERIOR.
Definition rank_ok (n p : Z) (x : crank) : Prop :=
  NoDup (c_vs x) /\ (forall v, outer x v -> 0 <= c_gid x v < 2 ^ 31) /\ (forall v w, outer x v -> outer x w -> c_gid x v = c_gid x w -> v = w) /\ table_ok n p (c_p x).
(** A global ID that both ranks have. *)
Definition common (x y : crank) (g : Z) : Prop := exists v w, outer x v /\ outer y w /\ c_gid x v = g /\ c_gid y w = g.
(** The kinds concerned: vertices and edges, with regions also faces. *)
Definition concerned (x : crank) (t : Z) : Prop := t = 0 \/ t = 1 \/ (t = 2 /\ c_nr x <> 0).
Definition from (m : pmesh) (q t : Z) : Prop := MESH_Has_Ghosts_From_Prtn m q t = Ok 1.

Lemma table_finv : forall n p m, table_ok n p m -> exists s, finv p n s m.
Proof.
  intros n p m (A & B & f & E & L & R). exists (mkPS (fun q k => Z.testbit (nth (Z.to_nat q) f 0) (2 * k)) (fun q k => Z.testbit (nth (Z.to_nat q) f 0) (2 * k + 1)) None).
  constructor; auto. exists f. split; auto. split; auto. intros q Hq. split. apply R. apply nth_In. lia. intros k Hk. split; reflexivity.
Qed.
Lemma finv_table : forall n p s m, finv p n s m -> table_ok n p m.
Proof.
  intros n p s m [A B (f & E & L & R)]. split; auto. split; auto. exists f. split; auto. split; auto. intros w Hw. destruct (In_nth _ _ 0 Hw) as (i & Hi & <-). destruct (R (Z.of_nat i)) as (X & _). lia. rewrite Nat2Z.id in X. exact X.
Qed.
Lemma rank_conn : forall n p x, rank_ok n p x -> exists s, conn_ok n p x s.
Proof.
  intros n p x (A & B & C & D). destruct (table_finv n p _ D) as (s & I). exists s. constructor; auto. intros v H1 H2. apply B. split; auto. intros v w H1 H2 H3 H4. apply C; split; auto.
Qed.
Lemma from_sg : forall p n s m q t, finv p n s m -> 0 <= q < n -> 0 <= t <= 3 -> (from m q t <-> sg s q t = true).
Proof.
  intros p n s m q t I Hq Ht. unfold from. rewrite (hasG_spec p n s m q t I Hq ltac:(lia)). unfold answer. replace (t =? 4) with false by lia. replace (t =? 5) with false by lia. replace (t =? 6) with false by lia.
  destruct (sg s q t); cbn [Z.b2z]; split; intros X; auto; discriminate.
Qed.
Lemma choose : forall (P : Z -> pspec -> Prop) N, (forall p, on (Z.of_nat N) p -> exists s, P p s) -> exists f, forall p, on (Z.of_nat N) p -> P p (f p).
Proof.
  intros P N. induction N as [|N IH]; intros H. exists (fun _ => ps0). intros p Hp. unfold on in Hp. lia.
  destruct IH as (f & Hf). { intros p Hp. apply H. unfold on in *. lia. } destruct (H (Z.of_nat N)) as (s & Hs). unfold on. lia.
  exists (fun p => if p =? Z.of_nat N then s else f p). intros p Hp. destruct (Z.eqb_spec p (Z.of_nat N)) as [->|]; auto. apply Hf. unfold on in *. lia.
Qed.

Lemma connection_ok : forall N junk x, (0 < N)%nat -> let n := Z.of_nat N in (forall p, on n p -> rank_ok n p (x p)) ->
  exists y, (forall lo, protocol n lo (lo + 2) (fun p => MESH_BuildConnection (junk p) n p (x p)) y) /\
    forall p, on n p ->
      c_vs (y p) = c_vs (x p) /\ c_pt (y p) = c_pt (x p) /\ c_gid (y p) = c_gid (x p) /\ c_nr (y p) = c_nr (x p) /\ precv (c_p (y p)) = precv (c_p (x p)) /\ table_ok n p (c_p (y p)) /\
      forall q t, on n q -> 0 <= t <= 3 ->
        (from (c_p (y p)) q t <-> from (c_p (x p)) q t \/ (q <> p /\ concerned (x p) t /\ exists g, common (x p) (x q) g)) /\
        MESH_Has_Overlaps_On_Prtn (c_p (y p)) q t = MESH_Has_Overlaps_On_Prtn (c_p (x p)) q t.
Proof.
  intros N junk x HN n HX. destruct (choose (fun p s => conn_ok n p (x p) s) N) as (s & Hs). { intros p Hp. apply rank_conn. auto. }
  destruct (connection N junk x s HN Hs) as (y & Y1 & Y2). exists y. split. exact Y1. intros p Hp. destruct (Y2 p Hp) as (s1 & E & I & R & G1 & G2).
  split. rewrite E. reflexivity. split. rewrite E. reflexivity. split. rewrite E. reflexivity. split. rewrite E. reflexivity. split. exact R. split. eapply finv_table; eauto.
  intros q t Hq Ht. assert (I0 := co_fi _ _ _ _ (Hs p Hp)). split.
  - rewrite (from_sg p n s1 _ q t I Hq Ht), (from_sg p n (s p) _ q t I0 Hq Ht), (G2 q t Ht). assert (X : share (x p) (x q) <-> exists g, common (x p) (x q) g).
    { split. intros (v & w & A1 & A2 & A3 & A4 & A5). exists (c_gid (x p) v), v, w. repeat split; auto. intros (g & v & w & (A1 & A3) & (A2 & A4) & A5 & A6). exists v, w. repeat split; auto. congruence. }
    rewrite <- X. unfold concerned, flagged_kind. tauto.
  - rewrite (hasO_spec p n s1 _ q t I Hq ltac:(lia)), (hasO_spec p n (s p) _ q t I0 Hq ltac:(lia)). unfold answer. rewrite !G1. auto.
Qed.

(** ** Who is flagged *)

(** Whatever the schedule and whatever the unused part of the buffers holds, all
    ranks come to an end; a rank has then flagged exactly the other ranks with which
    it has a global ID in common, for exactly the kinds concerned, beside what was
    flagged before; nothing else of it has changed. *)
Theorem C55_connection : forall N junk x, (0 < N)%nat -> let n := Z.of_nat N in (forall p, on n p -> rank_ok n p (x p)) ->
  exists y, never_stuck_with n (fun p => MESH_BuildConnection (junk p) n p (x p)) y /\
    forall p, on n p ->
      c_vs (y p) = c_vs (x p) /\ c_pt (y p) = c_pt (x p) /\ c_gid (y p) = c_gid (x p) /\ c_nr (y p) = c_nr (x p) /\ precv (c_p (y p)) = precv (c_p (x p)) /\ table_ok n p (c_p (y p)) /\
      forall q t, on n q -> 0 <= t <= 3 ->
        (from (c_p (y p)) q t <-> from (c_p (x p)) q t \/ (q <> p /\ concerned (x p) t /\ exists g, common (x p) (x q) g)) /\
        MESH_Has_Overlaps_On_Prtn (c_p (y p)) q t = MESH_Has_Overlaps_On_Prtn (c_p (x p)) q t.
Proof.
  intros N junk x HN n HX. destruct (connection_ok N junk x HN HX) as (y & Y1 & Y2). exists y. split. apply (protocol_runs _ n 0 (0 + 2)). unfold n; lia. apply Y1. exact Y2.
Qed.
Print Assumptions C55_connection.

(** Without earlier flags, for vertices and edges two ranks flag each other or
    neither does; for faces as well if both or neither have regions. *)
Theorem C55_mutual : forall N junk x, (0 < N)%nat -> let n := Z.of_nat N in (forall p, on n p -> rank_ok n p (x p)) ->
  (forall p q t, on n p -> on n q -> 0 <= t <= 3 -> ~ from (c_p (x p)) q t) ->
  exists y, never_stuck_with n (fun p => MESH_BuildConnection (junk p) n p (x p)) y /\
    forall p q t, on n p -> on n q -> 0 <= t <= 3 -> (t <= 1 \/ (c_nr (x p) <> 0 <-> c_nr (x q) <> 0)) -> (from (c_p (y p)) q t <-> from (c_p (y q)) p t).
Proof.
  intros N junk x HN n HX H0. destruct (C55_connection N junk x HN HX) as (y & Y1 & Y2). exists y. split; auto. intros p q t Hp Hq Ht Hr.
  assert (X : forall a b, on n a -> on n b -> (t <= 1 \/ (c_nr (x a) <> 0 <-> c_nr (x b) <> 0)) -> from (c_p (y a)) b t -> from (c_p (y b)) a t).
  { intros a b Ha Hb Hc F. destruct (Y2 a Ha) as (_ & _ & _ & _ & _ & _ & A). destruct (Y2 b Hb) as (_ & _ & _ & _ & _ & _ & B). apply (A b t Hb Ht) in F. apply (B a t Ha Ht). destruct F as [F|(F1 & F2 & g & v & w & F3 & F4 & F5 & F6)].
    exfalso. apply (H0 a b t Ha Hb Ht F). right. split. auto. split. unfold concerned in *. lia. exists g, w, v. auto. }
  split; apply X; auto. tauto.
Qed.
Print Assumptions C55_mutual.

(** ** Examples *)

(** Three ranks with three vertices each, not in the order of their global IDs: 0 and 1 have the IDs 30 and 40 in common, 1 and 2 the ID 60; 0 and 2 none that
    counts: vertex 3 of rank 2 has ID 10, too, but is taken for an interior one. *)
Definition tab (p : Z) (gids pts : list Z) (nr : Z) : crank :=
  mkCR [1; 2; 3] (fun v => nth (Z.to_nat (v - 1)) pts 0) (fun v => nth (Z.to_nat (v - 1)) gids 0) nr (MESH_Set_Prtn pmesh_new p 3).
Definition three (p : Z) : crank :=
  if p =? 0 then tab 0 [40; 10; 30] [2; 2; 2] 1 else if p =? 1 then tab 1 [60; 30; 40] [2; 3; 1] 1 else tab 2 [70; 60; 10] [2; 2; 0] 1.
Lemma on3 : forall p, on 3 p -> p = 0 \/ p = 1 \/ p = 2.
Proof. unfold on. lia. Qed.
Lemma tab_table : forall p gids pts nr, table_ok 3 p (c_p (tab p gids pts nr)).
Proof. intros. split; auto. split; auto. exists [0; 0; 0]. split; auto. split; auto. intros w [<-|[<-|[<-|[]]]]; lia. Qed.
Lemma tab_ok : forall p a b c pts nr, 0 <= a < 2 ^ 31 -> 0 <= b < 2 ^ 31 -> 0 <= c < 2 ^ 31 -> a <> b -> b <> c -> a <> c -> rank_ok 3 p (tab p [a; b; c] pts nr).
Proof.
  intros p a b c pts nr A B C AB BC AC. split. repeat (constructor; [cbn; lia|]). constructor. split. intros v ([<-|[<-|[<-|[]]]] & _); assumption.
  split. intros v w ([<-|[<-|[<-|[]]]] & _) ([<-|[<-|[<-|[]]]] & _); change (c_gid (tab p [a; b; c] pts nr) 1) with a; change (c_gid (tab p [a; b; c] pts nr) 2) with b; change (c_gid (tab p [a; b; c] pts nr) 3) with c; lia. apply tab_table.
Qed.
Lemma tab_unflagged : forall p a b c pts nr q t, on 3 q -> 0 <= t <= 3 -> ~ from (c_p (tab p [a; b; c] pts nr)) q t.
Proof.
  intros p a b c pts nr q t Hq Ht X. assert (T : t = 0 \/ t = 1 \/ t = 2 \/ t = 3) by lia. unfold from in X. destruct (on3 q Hq) as [->|[->| ->]]; destruct T as [->|[->|[->| ->]]]; discriminate.
Qed.
Lemma three_ok : forall p, on 3 p -> rank_ok 3 p (three p).
Proof. intros p Hp. destruct (on3 p Hp) as [->|[->| ->]]; apply tab_ok; lia. Qed.

Example C55_connection_ex : (forall p, on 3 p -> rank_ok 3 p (three p)) /\ (forall p q t, on 3 p -> on 3 q -> 0 <= t <= 3 -> ~ from (c_p (three p)) q t) /\
  exists y, never_stuck_with 3 (fun p => MESH_BuildConnection (fun i => 30 * p + i) 3 p (three p)) y /\
    from (c_p (y 0)) 1 0 /\ from (c_p (y 0)) 1 2 /\ from (c_p (y 1)) 0 0 /\ from (c_p (y 1)) 2 1 /\ from (c_p (y 2)) 1 1 /\ ~ from (c_p (y 0)) 2 0 /\ ~ from (c_p (y 2)) 0 0 /\ ~ from (c_p (y 0)) 1 3 /\ ~ from (c_p (y 0)) 0 0.
Proof.
  assert (U : forall p q t, on 3 p -> on 3 q -> 0 <= t <= 3 -> ~ from (c_p (three p)) q t) by (intros p q t Hp; destruct (on3 p Hp) as [->|[->| ->]]; apply tab_unflagged).
  split. exact three_ok. split. exact U. destruct (C55_connection 3 (fun p i => 30 * p + i) three ltac:(lia) three_ok) as (y & Y1 & Y2). exists y. split. exact Y1.
  assert (O0 : on 3 0) by (unfold on; lia). assert (O1 : on 3 1) by (unfold on; lia). assert (O2 : on 3 2) by (unfold on; lia).
  assert (F : forall p q t, on 3 p -> on 3 q -> 0 <= t <= 3 -> (from (c_p (y p)) q t <-> (q <> p /\ concerned (three p) t /\ exists g, common (three p) (three q) g))).
  { intros p q t Hp Hq Ht. destruct (Y2 p Hp) as (_ & _ & _ & _ & _ & _ & A). rewrite (proj1 (A q t Hq Ht)). pose proof (U p q t Hp Hq Ht). tauto. }
  assert (C01 : common (three 0) (three 1) 40). { exists 1, 3. repeat split; cbn; auto; discriminate. }
  assert (C12 : common (three 1) (three 2) 60). { exists 1, 2. repeat split; cbn; auto; discriminate. }
  assert (N02 : forall g, ~ common (three 0) (three 2) g). { intros g (v & w & ([<-|[<-|[<-|[]]]] & P1) & ([<-|[<-|[<-|[]]]] & P2) & G1 & G2); vm_compute in G1, G2, P2; try (apply P2; reflexivity); subst g; discriminate. }
  assert (SY : forall p q g, common (three p) (three q) g -> common (three q) (three p) g) by (intros p q g (v & w & X1 & X2 & X3 & X4); exists w, v; auto).
  assert (NR : forall p, on 3 p -> c_nr (three p) <> 0) by (intros p Hp; destruct (on3 p Hp) as [->|[->| ->]]; discriminate).
  rewrite !F by (auto; lia). unfold concerned. pose proof (NR 0 O0). repeat split; try (intros X; lia); eauto; try lia.
  - intros (_ & _ & g & X). apply (N02 g X).
  - intros (_ & _ & g & X). apply (N02 g). apply SY. exact X.
Qed.
(** Here every rank has regions, so all flags are mutual. *)
Example C55_mutual_ex : exists y, never_stuck_with 3 (fun p => MESH_BuildConnection (fun i => i) 3 p (three p)) y /\ forall p q t, on 3 p -> on 3 q -> 0 <= t <= 3 -> (from (c_p (y p)) q t <-> from (c_p (y q)) p t).
Proof.
  destruct (C55_mutual 3 (fun p i => i) three ltac:(lia) three_ok) as (y & Y1 & Y2). { intros p q t Hp. destruct (on3 p Hp) as [->|[->| ->]]; apply tab_unflagged. }
  exists y. split. exact Y1. intros p q t Hp Hq Ht. apply Y2; auto. right. destruct (on3 p Hp) as [->|[->| ->]]; destruct (on3 q Hq) as [->|[->| ->]]; cbn; tauto.
Qed.

(** ** What does not hold *)

(** Ranks 1 and 2 have just one vertex in common, so that no edge and no face can be
    on both; they are flagged as having ghost edges and faces from each other. *)
Theorem C55_edges_refuted : exists x, (forall p, on 3 p -> rank_ok 3 p (x p)) /\ (forall p q t, on 3 p -> on 3 q -> 0 <= t <= 3 -> ~ from (c_p (x p)) q t) /\
  (forall g g', common (x 1) (x 2) g -> common (x 1) (x 2) g' -> g = g') /\
  exists y, never_stuck_with 3 (fun p => MESH_BuildConnection (fun i => i) 3 p (x p)) y /\ from (c_p (y 1)) 2 1 /\ from (c_p (y 1)) 2 2.
Proof.
  exists three. split. exact three_ok. split. { intros p q t Hp. destruct (on3 p Hp) as [->|[->| ->]]; apply tab_unflagged. } split.
  - assert (X : forall g, common (three 1) (three 2) g -> g = 60); [|intros g g' H H'; rewrite (X g H), (X g' H'); auto].
    intros g (v & w & ([<-|[<-|[<-|[]]]] & P1) & ([<-|[<-|[<-|[]]]] & P2) & G1 & G2); vm_compute in G1, G2, P2; try (exfalso; apply P2; reflexivity); subst g; try discriminate; reflexivity.
  - destruct (C55_connection 3 (fun p i => i) three ltac:(lia) three_ok) as (y & Y1 & Y2). exists y. split. exact Y1.
    assert (O1 : on 3 1) by (unfold on; lia). assert (O2 : on 3 2) by (unfold on; lia). destruct (Y2 1 O1) as (_ & _ & _ & _ & _ & _ & A).
    assert (C12 : exists g, common (three 1) (three 2) g). { exists 60, 1, 2. repeat split; cbn; auto; discriminate. }
    split; apply A; auto; try lia; right; (split; [lia|]); (split; [unfold concerned|exact C12]); [lia|right; right; split; [lia|discriminate]].
Qed.
Print Assumptions C55_edges_refuted.

(** A rank whose part has no regions (a sheet of faces beside a volume mesh) does not
    flag faces, though the neighbour flags faces from it. *)
Definition sheet (p : Z) : crank := if p =? 0 then tab 0 [40; 10; 30] [2; 2; 2] 1 else if p =? 1 then tab 1 [40; 10; 30] [2; 2; 2] 0 else tab 2 [70; 60; 50] [2; 2; 2] 1.
Theorem C55_mutual_refuted : exists x, (forall p, on 3 p -> rank_ok 3 p (x p)) /\ (forall p q t, on 3 p -> on 3 q -> 0 <= t <= 3 -> ~ from (c_p (x p)) q t) /\
  exists y, never_stuck_with 3 (fun p => MESH_BuildConnection (fun i => i) 3 p (x p)) y /\ from (c_p (y 0)) 1 2 /\ ~ from (c_p (y 1)) 0 2.
Proof.
  assert (S : forall p, on 3 p -> rank_ok 3 p (sheet p)) by (intros p Hp; destruct (on3 p Hp) as [->|[->| ->]]; apply tab_ok; lia).
  assert (U : forall p q t, on 3 p -> on 3 q -> 0 <= t <= 3 -> ~ from (c_p (sheet p)) q t) by (intros p q t Hp; destruct (on3 p Hp) as [->|[->| ->]]; apply tab_unflagged).
  exists sheet. split. exact S. split. exact U. destruct (C55_connection 3 (fun p i => i) sheet ltac:(lia) S) as (y & Y1 & Y2). exists y. split. exact Y1.
  assert (O0 : on 3 0) by (unfold on; lia). assert (O1 : on 3 1) by (unfold on; lia). destruct (Y2 0 O0) as (_ & _ & _ & _ & _ & _ & A). destruct (Y2 1 O1) as (_ & _ & _ & _ & _ & _ & B). split.
  - apply A; auto; try lia. right. split. lia. split. right. right. split. lia. discriminate. exists 10, 2, 2. repeat split; cbn; auto; discriminate.
  - intros X. apply B in X; auto; try lia. destruct X as [X|(_ & X & _)]. exact (U 1 0 2 O1 O0 ltac:(lia) X). destruct X as [X|[X|(_ & X)]]; try lia. apply X. reflexivity.
Qed.
Print Assumptions C55_mutual_refuted.
