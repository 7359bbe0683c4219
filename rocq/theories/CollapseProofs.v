(** Lemmas for C45: what the steps of collapsing an edge do. *)
From Coq Require Import ZArith List Lia Bool Arith ZifyBool ZifyNat Permutation.
From Verif Require Import Base BaseProofs ListSpec AttModel AttProps TopoModel ParModel ParProps TopoSpec TopoProofs TopoProofs2 TopoProofs3 TopoProofs4 TopoProofs5 TopoProofs6 TopoProofs7 TopoProps TopoProps2 CellModel ModModel ModProofs ModProofs2 ModProps ModProps2 ModProofs3 ModProps3 CollapseModel.
Import ListNotations.
Open Scope Z_scope.

(** ** Which edges lie on the outside *)

Definition outm (cls : ptr -> Z * Z) (l : list ptr) : bool := match l with [_] => true | [r0; r1] => negb (snd (cls r0) =? snd (cls r1)) | _ => false end.
Lemma outm_perm : forall cls l l', Permutation l l' -> outm cls l = outm cls l'.
Proof.
  intros cls l l' P. pose proof (Permutation_length P) as L. destruct l as [|x [|y [|z l]]].
  - destruct l'; [auto|discriminate].
  - apply Permutation_length_1_inv in P. subst l'. auto.
  - apply Permutation_length_2_inv in P. destruct P as [->| ->]; auto. cbn. rewrite Z.eqb_sym. auto.
  - destruct l' as [|? [|? [|]]]; try discriminate. auto.
Qed.
Lemma face_outside_eq : forall cls t l (g : ptr -> list ptr), (forall f, In f l -> MF_Regions t f = Ok (g f)) -> face_outside cls t l = Ok (existsb (fun f => outm cls (g f)) l).
Proof.
  intros cls t l g. induction l as [|f l IH]; intros H; cbn [face_outside existsb]. auto. rewrite (H f (or_introl eq_refl)). cbn [bind]. rewrite IH by (intros; apply H; cbn; auto). cbv zeta. fold (outm cls (g f)). destruct (outm cls (g f)); auto.
Qed.
Lemma existsb_same : forall (A : Type) (f f' : A -> bool) l l', (forall x, In x l <-> In x l') -> (forall x, In x l -> f x = f' x) -> existsb f l = existsb f' l'.
Proof.
  intros A f f' l l' H E. apply eq_true_iff_eq. rewrite !existsb_exists. split; intros (x & Hx & Hf).
  exists x. split. apply H. auto. rewrite <- E; auto. exists x. apply H in Hx. split; auto. rewrite E; auto.
Qed.
Lemma edge_outside_eq : forall cls ghost t a t' a' x, reach t a -> reach t' a' -> a_e a x <> None -> a_e a' x <> None -> (forall f, has_edge a f x <-> has_edge a' f x) ->
  (forall r f d, has_face a r f d <-> has_face a' r f d) -> (fst (cls x) <> 4 \/ ghost x = true \/ exists f, has_edge a f x) ->
  exists b, edge_outside cls ghost t x = Ok b /\ edge_outside cls ghost t' x = Ok b.
Proof.
  intros cls ghost t a t' a' x R R' Hx Hx' HE HF K. unfold edge_outside. destruct ((fst (cls x) =? 1) || (fst (cls x) =? 2)). eauto.
  destruct ((fst (cls x) =? 4) && negb (ghost x)) eqn:E4; [|eauto]. destruct K as [K|[K|K]]; [lia| |]. { rewrite K, andb_false_r in E4. discriminate. }
  destruct (C26_edge_faces t a x R Hx) as (o & Eo & Ao). destruct (C26_edge_faces t' a' x R' Hx') as (o' & Eo' & Ao'). destruct K as (f & Hf).
  destruct o as [l|]; [|destruct (Ao f Hf)]. destruct o' as [l'|]. 2: { apply HE in Hf. destruct (Ao' f Hf). } destruct Ao as (_ & N & Hl), Ao' as (_ & N' & Hl').
  rewrite Eo, Eo'. cbn [bind nn]. assert (LL : forall y, In y l <-> In y l'). { intros y. rewrite Hl, Hl'. apply HE. }
  pose proof (NoDup_Permutation N N' LL) as P. replace (ZL l') with (ZL l) by (unfold ZL; rewrite (Permutation_length P); auto). destruct (ZL l =? 1); [eauto|].
  assert (G : forall y, In y l -> exists m m', MF_Regions t y = Ok m /\ MF_Regions t' y = Ok m' /\ outm cls m = outm cls m').
  { intros y Hy. destruct (C26_face_regions t a y R) as (m & Em & Nm & Hm). { apply Hl in Hy. destruct Hy as (b & Hb & _). congruence. }
    destruct (C26_face_regions t' a' y R') as (m' & Em' & Nm' & Hm'). { apply Hl, HE in Hy. destruct Hy as (b & Hb & _). congruence. }
    exists m, m'. split; auto. split; auto. apply outm_perm. apply NoDup_Permutation; auto. intros r. rewrite Hm, Hm'. split; intros (d & Hd); exists d; apply HF; auto. }
  set (g := fun T y => match MF_Regions T y with Ok m => m | _ => [] end). exists (existsb (fun y => outm cls (g t y)) l). split.
  - apply face_outside_eq. intros y Hy. destruct (G y Hy) as (m & m' & E & _). unfold g. rewrite E. auto.
  - rewrite face_outside_eq with (g := g t'). f_equal. symmetry. apply existsb_same; auto. intros y Hy. unfold g. destruct (G y Hy) as (m & m' & E & E' & EE). rewrite E, E'. auto.
    intros y Hy. apply LL in Hy. destruct (G y Hy) as (m & m' & E & E' & _). unfold g. rewrite E'. auto.
Qed.

(** ** Edges with the same ends *)

Definition twins (t : topo) (g h : ptr) : Prop := exists p q, edge_is t g p q /\ (edge_is t h p q \/ edge_is t h q p).
Lemma edge_fun : forall t g p q p' q', edge_is t g p q -> edge_is t g p' q' -> p = p' /\ q = q'.
Proof. intros t g p q p' q' (x & E & _ & A & B) (x' & E' & _ & A' & B'). rewrite E in E'. inversion E'; subst x'. split; congruence. Qed.
Lemma twins_sym : forall t g h, twins t g h -> twins t h g.
Proof. intros t g h (p & q & G & [H|H]). exists p, q. auto. exists q, p. auto. Qed.
Lemma twins_trans : forall t g h k, twins t g h -> twins t h k -> twins t g k.
Proof.
  intros t g h k (p & q & G & H) (p' & q' & H' & K). exists p, q. split; auto. destruct H as [H|H]; destruct (edge_fun _ _ _ _ _ _ H H') as [-> ->]; tauto.
Qed.
Lemma get_edge : forall t e p q, edge_is t e p q -> ME_Vertex t e 0 = Ok p /\ ME_Vertex t e 1 = Ok q.
Proof. intros t e p q (x & E & _ & <- & <-). unfold ME_Vertex, gete. rewrite E. auto. Qed.

Section Twin.
  Variables (cls : ptr -> Z * Z) (gid : ptr -> Z) (ghost : ptr -> bool) (out : ptr -> bool).
  (** Whether the second edge is merged onto the first. *)
  Definition dec (g h : ptr) : bool := if Bool.eqb (out g) (out h) then gid g <=? gid h else out g.
  Lemma dec_total : forall g h, dec g h = false -> dec h g = false -> False.
  Proof using. clear cls ghost. intros g h. unfold dec. destruct (out g), (out h); cbn; lia || discriminate. Qed.
  Lemma edge_twin_ok : forall t e edge, edge <> e -> (exists p q, edge_is t edge p q) -> forall l, (forall y, In y l -> y = NULL \/ exists p q, edge_is t y p q) ->
    (forall y, In y l -> y <> NULL -> y <> edge -> twins t edge y -> edge_outside cls ghost t edge = Ok (out edge) /\ edge_outside cls ghost t y = Ok (out y)) ->
    exists o, edge_twin cls gid ghost t e edge l = Ok o /\
      match o with
      | None => forall y, In y l -> y <> NULL -> y <> edge -> twins t edge y -> dec edge y = false
      | Some y => In y l /\ y <> NULL /\ y <> edge /\ twins t edge y /\ dec edge y = true
      end.
  Proof using.
    intros t e edge Ne (p & q & Hpq) l. induction l as [|y l IH]; intros HL HO; cbn [edge_twin]. { exists None. split; auto. intros y []. }
    destruct IH as (o & Eo & Ho). { intros z Hz. apply HL. cbn; auto. } { intros z Hz. apply HO. cbn; auto. }
    assert (G : (y <> NULL -> y <> edge -> twins t edge y -> dec edge y = false) -> exists o, edge_twin cls gid ghost t e edge l = Ok o /\
      match o with None => forall z, In z (y :: l) -> z <> NULL -> z <> edge -> twins t edge z -> dec edge z = false | Some z => In z (y :: l) /\ z <> NULL /\ z <> edge /\ twins t edge z /\ dec edge z = true end).
    { intros HY. exists o. split; auto. destruct o. split. cbn; tauto. tauto. intros z [<-|Hz]; auto. }
    replace (edge =? e) with false by lia. rewrite orb_false_r. destruct (Z.eqb_spec y NULL) as [Ey|Ey]; [apply G; contradiction|]. destruct (Z.eqb_spec edge y) as [Ey'|Ey']; [apply G; congruence|]. cbn [orb].
    destruct (HL y (or_introl eq_refl)) as [?|(p' & q' & Hy)]; [contradiction|]. destruct (get_edge _ _ _ _ Hpq) as [-> ->], (get_edge _ _ _ _ Hy) as [-> ->]. cbn [bind].
    assert (TW : twins t edge y <-> (p =? p') && (q =? q') || (p =? q') && (p' =? q) = true).
    { split. - intros (a & b & Ha & Hb). destruct (edge_fun _ _ _ _ _ _ Hpq Ha) as [-> ->]. destruct Hb as [Hb|Hb]; destruct (edge_fun _ _ _ _ _ _ Hy Hb) as [-> ->]; rewrite !Z.eqb_refl; rewrite ?orb_true_r; auto.
      - intros X. exists p, q. split; auto. apply orb_true_iff in X. destruct X as [X|X]; [left|right]; apply andb_true_iff in X; destruct X as [X1 X2]; apply Z.eqb_eq in X1, X2; congruence. }
    destruct ((p =? p') && (q =? q') || (p =? q') && (p' =? q)) eqn:B. 2: { apply G. intros _ _ X. apply TW in X. discriminate. }
    destruct (HO y (or_introl eq_refl) Ey ltac:(congruence) (proj2 TW eq_refl)) as [-> ->]. cbn [bind]. fold (dec edge y). destruct (dec edge y) eqn:D; [|apply G; auto].
    exists (Some y). split; auto. split. cbn; auto. split; auto. split. congruence. split; auto. apply TW. auto.
  Qed.
End Twin.

(** ** Merging the edges that have come to lie on each other *)

Lemma blank1_map : forall y dels, ~ In y dels -> y <> NULL -> forall L, NoDup L -> In y L ->
  blank1 y (map (fun x => if mem x dels then NULL else x) L) = map (fun x => if mem x (dels ++ [y]) then NULL else x) L.
Proof.
  intros y dels Hy Hn. assert (M : forall x, mem x (dels ++ [y]) = mem x dels || (x =? y)).
  { intros x. unfold mem. rewrite existsb_app. cbn. rewrite orb_false_r. auto. }
  assert (M0 : mem y dels = false). { apply not_true_iff_false. rewrite mem_In. auto. }
  induction L as [|x L IH]; intros ND HI; [destruct HI|]. inversion ND as [|? ? NL ND']; subst. cbn [map blank1]. rewrite M. destruct (Z.eqb_spec x y) as [->|Nxy].
  - rewrite M0. cbn [orb]. rewrite Z.eqb_refl. f_equal. apply map_ext_in. intros z Hz. rewrite M. replace (z =? y) with false. rewrite orb_false_r. auto. symmetry. apply Z.eqb_neq. intros ->. auto.
  - rewrite orb_false_r. destruct HI as [?|HI]; [contradiction|]. replace ((if mem x dels then NULL else x) =? y) with false. f_equal. auto. symmetry. apply Z.eqb_neq. destruct (mem x dels); auto.
Qed.

Definition goes (t : topo) (x : ptr * bool) (p q : ptr) : Prop := edge_is t (fst x) (if snd x then p else q) (if snd x then q else p).
Lemma goes_end : forall t x p q, goes t x p q -> edge_is t (fst x) p q \/ edge_is t (fst x) q p.
Proof. intros t [e d] p q H. unfold goes in H. cbn [fst snd] in *. destruct d; auto. Qed.

Section Merge.
  Variables (cls : ptr -> Z * Z) (gid : ptr -> Z) (ghost : ptr -> bool) (flag : bool) (t0 : topo) (a0 : amesh) (e : ptr) (L : list ptr).
  Hypothesis R0 : reach t0 a0.
  Hypothesis ND : NoDup L.
  Hypothesis LE : forall g, In g L -> exists p q, edge_is t0 g p q.
  Hypothesis LT : forall g h, In g L -> g <> e -> twins t0 g h -> In h L /\ h <> e.
  Hypothesis HP : forall g p, In g L -> g <> e -> ~ edge_is t0 g p p.
  Hypothesis H2 : forall g h k, In g L -> g <> e -> g <> h -> g <> k -> twins t0 g h -> twins t0 g k -> h = k.
  Hypothesis HB : forall f b g h, In g L -> g <> e -> face_is t0 f b -> In g (map fst b) -> In h (map fst b) -> g <> h -> ~ twins t0 g h.
  Hypothesis KN : forall g h, In g L -> g <> e -> g <> h -> twins t0 g h -> fst (cls g) <> 4 \/ ghost g = true \/ exists f b, face_is t0 f b /\ In g (map fst b).
  Hypothesis FL : forall g h, flag = true -> In g L -> g <> e -> twins t0 g h -> cls g = cls h.

  Definition out0 (g : ptr) : bool := match edge_outside cls ghost t0 g with Ok b => b | _ => false end.
  Definition img (prs : list (ptr * ptr)) (x y : ptr * bool) : Prop :=
    (x = y /\ ~ In (fst x) (map fst prs)) \/ (In (fst x, fst y) prs /\ forall p q, goes t0 x p q -> goes t0 y p q).
  Record mst (i : Z) (t : topo) (l dels : list ptr) (prs : list (ptr * ptr)) : Prop := {
    ms_a : exists a, reach t a;
    ms_l : l = map (fun x => if mem x dels then NULL else x) L;
    ms_d : dels = map fst prs;
    ms_n : NoDup dels;
    ms_p : forall g2 g1, In (g2, g1) prs -> In g2 L /\ In g1 L /\ g2 <> e /\ g1 <> e /\ g2 <> g1 /\ twins t0 g1 g2 /\ ~ In g1 dels;
    ms_e : forall g p q, edge_is t g p q <-> edge_is t0 g p q /\ ~ In g dels;
    ms_f : forall f b, face_is t0 f b -> exists b', face_is t f b' /\ Forall2 (img prs) b b';
    ms_f' : forall f b', face_is t f b' -> exists b, face_is t0 f b;
    ms_v : forall v, option_map v_live (tvs t v) = option_map v_live (tvs t0 v);
    ms_r : forall r c, reg_is t r c <-> reg_is t0 r c;
    ms_x : (forall g, In g dels -> exists x, tes t g = Some x /\ e_live x = false) /\ (forall f, option_map f_live (tfs t f) = option_map f_live (tfs t0 f)) /\ (forall r, option_map r_live (trs t r) = option_map r_live (trs t0 r));
    ms_q : forall g2 g1, In (g2, g1) prs -> dec gid out0 g1 g2 = true;
    ms_i : forall j, (Z.of_nat j < i) -> (j < length L)%nat -> nth j L NULL <> e -> ~ In (nth j L NULL) dels ->
      forall y, y <> nth j L NULL -> ~ In y dels -> twins t0 (nth j L NULL) y -> dec gid out0 (nth j L NULL) y = false }.

  Lemma L_nn : ~ In NULL L.
  Proof using R0 LE.
    intros H. destruct (LE _ H) as (p & q & Hp). pose proof (reach_inv _ _ R0) as I. apply (edge_is_iff _ _ _ _ _ I) in Hp. assert (X : a_e a0 NULL <> None) by congruence. pose proof (w_e _ (i_w _ _ I) _ X) as Y. unfold NULL in Y. clear -Y. lia.
  Qed.
  (** An edge with a twin that is still there is used by the faces that used it. *)
  Lemma used : forall i t l dels prs x y f b b', mst i t l dels prs -> In x L -> x <> e -> y <> x -> twins t0 x y -> ~ In x dels -> ~ In y dels -> face_is t0 f b -> Forall2 (img prs) b b' -> (In x (map fst b) <-> In x (map fst b')).
  Proof using H2.
    intros i t l dels prs x y f b b' M Hx Ne Nyx TW Nx Ny Hb F. pose proof (ms_d _ _ _ _ _ M) as D. split; intros H.
    - clear -F H Nx D. induction F as [|u w b b' U F IH]; cbn in *; [tauto|]. destruct H as [H|H]; [|right; auto]. destruct U as [[-> _]|[U _]]; [left; auto|]. exfalso. apply Nx. rewrite D. apply in_map_iff. exists (fst u, fst w). auto.
    - assert (NP : forall u, ~ In (u, x) prs). { intros u Hu. destruct (ms_p _ _ _ _ _ M _ _ Hu) as (_ & _ & _ & _ & N & T & _). assert (u = y) by (apply (H2 x); auto). subst u. apply Ny. rewrite D. apply in_map_iff. exists (y, x). auto. }
      clear -F H NP. induction F as [|u w b b' U F IH]; cbn in *; [tauto|]. destruct H as [H|H]; [|right; auto]. destruct U as [[-> _]|[U _]]; [left; auto|]. rewrite H in U. destruct (NP _ U).
  Qed.
  Lemma out_same : forall i t l dels prs x y, mst i t l dels prs -> In x L -> x <> e -> y <> x -> twins t0 x y -> ~ In x dels -> ~ In y dels -> edge_outside cls ghost t x = Ok (out0 x).
  Proof using H2 KN R0.
    intros i t l dels prs x y M Hx Ne Nyx TW Nx Ny. destruct (ms_a _ _ _ _ _ M) as (a & R). pose proof (reach_inv _ _ R0) as I0. pose proof (reach_inv _ _ R) as I.
    destruct TW as (p & q & Hpq & HY). assert (Hpq' : edge_is t x p q) by (apply (ms_e _ _ _ _ _ M); auto).
    assert (TW : twins t0 x y) by (exists p, q; auto).
    destruct (edge_outside_eq cls ghost t0 a0 t a x R0 R) as (b & E0 & E1).
    - apply (edge_is_iff _ _ _ _ _ I0) in Hpq. congruence.
    - apply (edge_is_iff _ _ _ _ _ I) in Hpq'. congruence.
    - intros f. split; intros (c & Hc & Hi).
      + apply (face_is_iff _ _ _ _ I0) in Hc. destruct (ms_f _ _ _ _ _ M f c Hc) as (c' & Hc' & F). exists c'. split. apply (face_is_iff _ _ _ _ I). auto. apply (used _ _ _ _ _ x y f c c' M); auto.
      + apply (face_is_iff _ _ _ _ I) in Hc. destruct (ms_f' _ _ _ _ _ M f c Hc) as (c0 & Hc0). destruct (ms_f _ _ _ _ _ M f c0 Hc0) as (c' & Hc' & F). assert (c' = c). { apply (face_is_iff _ _ _ _ I) in Hc, Hc'. congruence. } subst c'.
        exists c0. split. apply (face_is_iff _ _ _ _ I0). auto. apply (used _ _ _ _ _ x y f c0 c M); auto.
    - intros r f d. pose proof (ms_r _ _ _ _ _ M) as RR. split; intros (c & Hc & Hi); exists c; split; auto. apply (reg_is_iff _ _ _ _ I). apply RR. apply (reg_is_iff _ _ _ _ I0). auto. apply (reg_is_iff _ _ _ _ I0). apply RR. apply (reg_is_iff _ _ _ _ I). auto.
    - destruct (KN x y Hx Ne ltac:(congruence) TW) as [K|[K|(f & c & Hc & Hi)]]; auto. right. right. exists f, c. split; auto. apply (face_is_iff _ _ _ _ I0). auto.
    - unfold out0. rewrite E0. auto.
  Qed.
  Lemma merge_one : forall i t l dels prs x y, mst i t l dels prs -> In x L -> x <> e -> y <> x -> twins t0 x y -> ~ In x dels -> ~ In y dels -> dec gid out0 x y = true ->
    exists t', MEs_Merge cls t [] x y flag = Ok (t', [], x) /\ mst i t' (blank1 y l) (dels ++ [y]) (prs ++ [(y, x)]).
  Proof using R0 ND LE LT HP H2 HB FL.
    intros i t l dels prs x y M Hx Ne Nyx TW Nx Ny HD. destruct (ms_a _ _ _ _ _ M) as (a & R). pose proof (ms_d _ _ _ _ _ M) as D. pose proof (reach_inv _ _ R) as I. pose proof (reach_inv _ _ R0) as I0.
    destruct (LT x y Hx Ne TW) as (HyL & Ney). pose proof (twins_sym _ _ _ TW) as TW'. destruct TW' as (p & q & Hy & HX).
    assert (Hs : exists s : bool, if s then edge_is t0 x p q else edge_is t0 x q p) by (destruct HX; [exists true|exists false]; auto). destruct Hs as (s & Hs). clear HX.
    assert (LV : forall z, (z = x \/ z = y) -> forall u w, edge_is t0 z u w -> edge_is t z u w). { intros z Hz u w H. apply (ms_e _ _ _ _ _ M). split; auto. destruct Hz as [->| ->]; auto. }
    assert (Npq : p <> q) by (intros ->; apply (HP y q); auto).
    destruct (C40_edges cls t a [] x y p q s flag R) as (t' & sets' & E & C1 & C2 & _ & C3 & C4 & C5 & C6 & C7 & C10 & C11 & C12 & C8 & _ & _ & C9); auto.
    { destruct s; auto. }
    { intros f b Hb Hi Hj. destruct (ms_f' _ _ _ _ _ M f b Hb) as (b0 & Hb0). destruct (ms_f _ _ _ _ _ M f b0 Hb0) as (b' & Hb' & F). assert (b' = b). { apply (face_is_iff _ _ _ _ I) in Hb, Hb'. congruence. } subst b'.
      apply (HB f b0 x y); auto. apply (used _ _ _ _ _ x y f b0 b M); auto. apply (used _ _ _ _ _ y x f b0 b M); auto. apply twins_sym; auto. }
    inversion C8; subst sets'. exists t'. split; auto. constructor.
    - exact C9.
    - rewrite (ms_l _ _ _ _ _ M). apply blank1_map; auto. intros ->. apply L_nn; auto.
    - rewrite map_app, D. auto.
    - apply nd_app. split. apply (ms_n _ _ _ _ _ M). split. constructor; auto. constructor. intros z Hz [<-|[]]. auto.
    - intros g2 g1 Hg. apply in_app_or in Hg. destruct Hg as [Hg|[Hg|[]]].
      + destruct (ms_p _ _ _ _ _ M _ _ Hg) as (P1 & P2 & P3 & P4 & P5 & P6 & P7). split; auto. split; auto. split; auto. split; auto. split; auto. split; auto. intros X. apply in_app_or in X. destruct X as [X|[X|[]]]; auto. subst g1.
        assert (g2 = x). { apply (H2 y); auto. apply twins_sym; auto. } subst g2. apply Nx. rewrite D. apply in_map_iff. exists (x, y). auto.
      + inversion Hg; subst g2 g1. split; auto. split; auto. split; auto. split; auto. split; auto. split; auto. intros X. apply in_app_or in X. destruct X as [X|[X|[]]]; auto.
    - intros g u w. split.
      + intros H. destruct (Z.eq_dec g y) as [->|N]. { destruct C5 as (z & Ez & Lz). destruct H as (z' & Ez' & Lz' & _). rewrite Ez in Ez'. congruence. }
        apply C4 in H; auto. apply (ms_e _ _ _ _ _ M) in H. destruct H as [H N']. split; auto. intros X. apply in_app_or in X. destruct X as [X|[X|[]]]; auto.
      + intros [H N]. apply C4. intros ->. apply N. apply in_or_app. cbn; auto. apply (ms_e _ _ _ _ _ M). split; auto. intros X. apply N. apply in_or_app. auto.
    - intros f b Hb. destruct (ms_f _ _ _ _ _ M f b Hb) as (b' & Hb' & F). destruct (in_dec Z.eq_dec y (map fst b')) as [Hi|Hi].
      + apply in_map_iff in Hi. destruct Hi as ([y' d] & Ey & Hi). cbn in Ey. subst y'. apply in_split in Hi. destruct Hi as (b1 & b2 & ->).
        exists (b1 ++ (x, if s then d else negb d) :: b2). split. apply C1. auto.
        assert (NDb : NoDup (map fst (b1 ++ (y, d) :: b2))). { apply (face_is_iff _ _ _ _ I) in Hb'. apply (w_fnd _ (i_w _ _ I) _ _ _ Hb'). }
        apply Forall2_app_inv_r in F. destruct F as (c1 & c2' & F1 & F2 & ->). inversion F2 as [|u w0 c2 b20 U F2']; subst c2' w0 b20.
        rewrite map_app in NDb. cbn [map fst] in NDb. apply NoDup_remove in NDb. destruct NDb as [_ NI].
        assert (G : forall c b, Forall2 (img prs) c b -> ~ In y (map fst b) -> Forall2 (img (prs ++ [(y, x)])) c b).
        { clear -Ny Nx. intros c b F. induction F as [|u w c b U F IH]; intros N; constructor. 2: { apply IH. intros X. apply N. cbn. auto. }
          destruct U as [[-> U]|[U1 U2]]. left. split; auto. rewrite map_app. intros X. apply in_app_or in X. cbn [map fst] in X. destruct X as [X|[X|[]]]; auto. apply N. cbn. auto. right. split; auto. apply in_or_app. auto. }
        assert (~ In y (map fst b1) /\ ~ In y (map fst b2)). { split; intros X; apply NI; apply in_or_app; auto. }
        apply Forall2_app. apply G; tauto. constructor; [|apply G; tauto].
        right. destruct U as [[-> U]|[U _]]; cbn [fst snd] in *.
        * split. apply in_or_app. cbn; auto. intros u w Hg. unfold goes in *. cbn [fst snd] in *. destruct d; destruct (edge_fun _ _ _ _ _ _ Hg Hy) as [-> ->]; destruct s; auto.
        * destruct (ms_p _ _ _ _ _ M _ _ U) as (_ & _ & _ & _ & P5 & P6 & P7). assert (fst u = x). { apply (H2 y); auto. apply twins_sym; auto. } exfalso. apply Nx. rewrite D. apply in_map_iff. exists (fst u, y). auto.
      + exists b'. split. apply C2; auto. clear -F Hi. induction F as [|u w c b U F IH]; constructor. 2: { apply IH. intros X. apply Hi. cbn. auto. }
        destruct U as [[-> U]|[U1 U2]]. left. split; auto. rewrite map_app. intros X. apply in_app_or in X. cbn [map fst] in X. destruct X as [X|[X|[]]]; auto. apply Hi. cbn. auto. right. split; auto. apply in_or_app. auto.
    - intros f b Hb. destruct (C3 f b Hb) as (_ & b0 & Hb0). apply (ms_f' _ _ _ _ _ M f b0). auto.
    - intros v. rewrite C6. apply (ms_v _ _ _ _ _ M).
    - intros r c. rewrite C7. apply (ms_r _ _ _ _ _ M).
    - destruct (ms_x _ _ _ _ _ M) as (X1 & X2 & X3). split. 2: { split; intros z. rewrite C11. auto. rewrite C12. auto. } intros g Hg. destruct (Z.eq_dec g y) as [->|N]; auto. apply in_app_or in Hg. destruct Hg as [Hg|[Hg|[]]]; [|congruence]. destruct (X1 g Hg) as (z & Ez & Lz). specialize (C10 g N). rewrite Ez in C10. destruct (tes t' g) as [z'|]; [|discriminate]. exists z'. split; auto. cbn in C10. congruence.
    - intros g2 g1 Hg. apply in_app_or in Hg. destruct Hg as [Hg|[Hg|[]]]. apply (ms_q _ _ _ _ _ M); auto. inversion Hg; subst; auto.
    - intros j Hj Hl Nj Nd z Hz Nz T. apply (ms_i _ _ _ _ _ M); auto; intros X; [apply Nd|apply Nz]; apply in_or_app; auto.
  Qed.
  Lemma merge_edges_ok : exists t' l dels prs, merge_edges cls gid ghost t0 e flag L = Ok (t', l, dels, prs) /\ mst (ZL L) t' l dels prs.
  Proof using R0 ND LE LT HP H2 HB KN FL.
    destruct (foldM_up _ (fun i s => mst i (fst (fst (fst s))) (snd (fst (fst s))) (snd (fst s)) (snd s)) (fun '(t, l, dels, prs) i =>
      edge <- lent l i ;;
      if (edge =? NULL) || (edge =? e) then Ok (t, l, dels, prs) else
      o <- edge_twin cls gid ghost t e edge l ;;
      match o with
      | None => Ok (t, l, dels, prs)
      | Some edge2 =>
          ' (t, _, _) <- MEs_Merge cls t [] edge edge2 flag ;;
          Ok (t, blank1 edge2 l, dels ++ [edge2], prs ++ [(edge2, edge)])
      end) 0 (ZL L) (t0, L, [], [])) as ([[[t' l] dels] prs] & E & M).
    - unfold ZL. lia.
    - cbn [fst snd]. constructor; cbn [map mem existsb In]; auto.
      + exists a0. auto.
      + cbn. symmetry. apply map_id.
      + constructor.
      + intros g2 g1 [].
      + intros g p q. tauto.
      + intros f b Hb. exists b. split; auto. clear Hb. induction b as [|x b IH]; constructor; auto. left. split; auto.
      + intros f b Hb. eauto.
      + intros r c. tauto.
      + split; auto. intros g [].
      + intros j Hj. lia.
    - intros k [[[t l] dels] prs] Hk M. cbn [fst snd] in M. destruct (ms_a _ _ _ _ _ M) as (a & R).
      set (j := Z.to_nat k). assert (Hj : (j < length L)%nat) by (unfold ZL in Hk; lia). set (x := nth j L NULL). assert (HxL : In x L) by (apply nth_In; auto).
      assert (NX : x <> NULL). { intros X. apply L_nn. rewrite <- X. auto. }
      assert (EL : lent l k = Ok (if mem x dels then NULL else x)). { unfold lent. replace (k <? 0) with false by lia. rewrite (ms_l _ _ _ _ _ M). set (g := fun z => if mem z dels then NULL else z). rewrite (nth_indep (map g L) NULL (g NULL)) by (rewrite map_length; auto). rewrite (map_nth g). auto. }
      rewrite EL. cbn [bind]. clear EL.
      assert (STEP : (x <> e -> ~ In x dels -> forall y, y <> x -> ~ In y dels -> twins t0 x y -> dec gid out0 x y = false) -> mst (k + 1) t l dels prs).
      { intros G. destruct M. constructor; auto. intros i Hi Hl. destruct (Nat.eq_dec i j) as [->|N]. exact G. apply ms_i0; auto. unfold j in N. lia. }
      destruct (mem x dels) eqn:Md. { rewrite Z.eqb_refl. cbn [orb]. eexists. split. reflexivity. cbn [fst snd]. apply STEP. intros _ H. apply mem_In in Md. contradiction. }
      assert (Nx : ~ In x dels). { rewrite <- mem_In. rewrite Md. discriminate. }
      replace (x =? NULL) with false by lia. cbn [orb]. destruct (Z.eqb_spec x e) as [Ex|Ex]. { eexists. split. reflexivity. cbn [fst snd]. apply STEP. contradiction. }
      assert (LIn : forall y, In y l -> y <> NULL -> In y L /\ ~ In y dels).
      { intros y Hy Ny. rewrite (ms_l _ _ _ _ _ M) in Hy. apply in_map_iff in Hy. destruct Hy as (z & Hz & HzL). destruct (mem z dels) eqn:Mz; [congruence|]. subst z. split; auto. rewrite <- mem_In. rewrite Mz. discriminate. }
      assert (LIn' : forall y, In y L -> ~ In y dels -> In y l). { intros y Hy Ny. rewrite (ms_l _ _ _ _ _ M). apply in_map_iff. exists y. split; auto. destruct (mem y dels) eqn:My; auto. apply mem_In in My. contradiction. }
      assert (TT : forall y, twins t x y <-> twins t0 x y /\ ~ In y dels).
      { intros y. split.
        - intros (p & q & A & B). apply (ms_e _ _ _ _ _ M) in A. destruct A as [A _]. assert (B' : (edge_is t0 y p q \/ edge_is t0 y q p) /\ ~ In y dels) by (destruct B as [B|B]; apply (ms_e _ _ _ _ _ M) in B; tauto). split; [exists p, q|]; tauto.
        - intros [(p & q & A & B) N]. exists p, q. rewrite !(ms_e _ _ _ _ _ M). tauto. }
      destruct (edge_twin_ok cls gid ghost out0 t e x Ex) with (l := l) as (o & Eo & Ho).
      { destruct (LE x HxL) as (p & q & H). exists p, q. apply (ms_e _ _ _ _ _ M). auto. }
      { intros y Hy. destruct (Z.eq_dec y NULL) as [->|Ny]; auto. right. destruct (LIn y Hy Ny) as [HyL Nd]. destruct (LE y HyL) as (p & q & H). exists p, q. apply (ms_e _ _ _ _ _ M). auto. }
      { intros y Hy Ny Nyx T. apply TT in T. destruct T as [T Nd]. destruct (LIn y Hy Ny) as [HyL _]. destruct (LT x y HxL Ex T) as [_ Ney]. split. apply (out_same _ _ _ _ _ x y M); auto. apply (out_same _ _ _ _ _ y x M); auto. apply twins_sym; auto. }
      rewrite Eo. cbn [bind]. destruct o as [y|].
      + destruct Ho as (Hy & Ny & Nyx & T & Hd). apply TT in T. destruct T as [T Nd]. destruct (merge_one _ _ _ _ _ x y M HxL Ex Nyx T Nx Nd Hd) as (t' & E & M'). rewrite E. cbn [bind]. eexists. split. reflexivity. cbn [fst snd].
        destruct M' as [m1 m2 m3 m4 m5 m6 m7 m8 m9 m10 m13 m12 m11]. constructor; auto. intros i Hi Hl. destruct (Nat.eq_dec i j) as [->|N]. 2: { apply m11; auto. unfold j in N. lia. }
        intros _ _ z Hz Nz Tz. exfalso. fold x in Hz, Tz. assert (z = y) by (apply (H2 x); auto). subst z. apply Nz. apply in_or_app. cbn; auto.
      + eexists. split. reflexivity. cbn [fst snd]. apply STEP. intros _ _ y Nyx Nd T. apply Ho; auto. apply LIn'; auto. apply (LT x y); auto. destruct (LT x y HxL Ex T) as [HyL _]. intros ->. apply L_nn; auto. apply TT. auto.
    - cbn [fst snd] in M. exists t', l, dels, prs. split; auto.
  Qed.
  (** Of any two twins one is gone in the end. *)
  Lemma merged_all : forall t l dels prs x y, mst (ZL L) t l dels prs -> In x L -> x <> e -> y <> x -> twins t0 x y -> In (x, y) prs \/ In (y, x) prs.
  Proof using LT H2.
    intros t l dels prs x y M Hx Ex Nyx T. destruct (LT x y Hx Ex T) as [Hy Ey]. pose proof (ms_d _ _ _ _ _ M) as D.
    assert (G : forall u w, In u dels -> In u L -> u <> e -> w <> u -> twins t0 u w -> In (u, w) prs).
    { intros u w Hu HuL Eu N Tu. rewrite D in Hu. apply in_map_iff in Hu. destruct Hu as ([u' z] & Eu' & Hz). cbn in Eu'. subst u'. destruct (ms_p _ _ _ _ _ M _ _ Hz) as (_ & _ & _ & _ & N' & T' & _). assert (z = w). { apply (H2 u); auto. apply twins_sym; auto. } subst z. auto. }
    destruct (in_dec Z.eq_dec x dels) as [Dx|Dx]. left. apply G; auto. destruct (in_dec Z.eq_dec y dels) as [Dy|Dy]. right. apply G; auto. apply twins_sym; auto.
    exfalso. assert (J : forall u w, In u L -> u <> e -> w <> u -> twins t0 u w -> ~ In u dels -> ~ In w dels -> dec gid out0 u w = false).
    { intros u w HuL Eu N Tu Du Dw. destruct (In_nth _ _ NULL HuL) as (j & Hj & <-). apply (ms_i _ _ _ _ _ M); auto. unfold ZL. clear -Hj. lia. }
    apply (dec_total gid out0 x y); apply J; auto. apply twins_sym; auto.
  Qed.
End Merge.

(** ** Deleting the triangles at the edge *)

Lemma del_tris_ok : forall l t a d0, reach t a -> NoDup l -> (forall f, In f l -> exists b, a_f a f = Some (true, Some b) /\ length b = 3%nat) -> (forall f r d, In f l -> ~ has_face a r f d) ->
  exists t' a', foldM (fun '(t, dels) face =>
      fedges <- MF_Edges t face 1 NULL ;;
      if ZL fedges =? 3 then
        fregs <- MF_Regions t face ;;
        t <- foldM (fun t reg => MR_Rem_Face t reg face) t fregs ;;
        t <- MF_Delete t face true ;;
        Ok (t, dels ++ [face])
      else Ok (t, dels)) (t, d0) l = Ok (t', d0 ++ l) /\ reach t' a' /\ a_v a' = a_v a /\ a_e a' = a_e a /\ a_r a' = a_r a /\
    (forall f, ~ In f l -> a_f a' f = a_f a f) /\ (forall f, In f l -> exists b, a_f a' f = Some (false, b)).
Proof.
  induction l as [|f l IH]; intros t a d0 R ND HF HR; cbn [foldM].
  - exists t, a. rewrite app_nil_r. split; auto. split; auto. split; auto. split; auto. split; auto. split; auto. intros f [].
  - inversion ND as [|? ? Nl ND']; subst. destruct (HF f (or_introl eq_refl)) as (b & Hb & Lb). pose proof (reach_inv _ _ R) as I.
    pose proof (face_edges_query t a f b true I Hb) as E. change (b2z true) with 1 in E. rewrite E. cbn [bind walk]. unfold ZL at 1. rewrite map_length, Lb. change (Z.of_nat 3 =? 3) with true. cbv iota.
    destruct (C26_face_regions t a f R ltac:(congruence)) as (rs & Er & _ & Hr). rewrite Er. cbn [bind]. assert (rs = []). { destruct rs as [|r rs]; auto. destruct (proj1 (Hr r) (or_introl eq_refl)) as (d & Hd). destruct (HR f r d); cbn; auto. } subst rs. cbn [foldM bind].
    destruct (reach_step t a (TDelF f true) R) as (t1 & E1 & R1). { cbn [tpre]. split. congruence. intros _ r d. apply HR. cbn; auto. }
    cbn [tstep] in E1. rewrite E1. cbn [bind]. cbn [astep] in R1.
    assert (K : forall g, g <> f -> a_f (with_f a (kill (a_f a) f true)) g = a_f a g). { intros g Hg. ra. unfold kill. apply upd_other. auto. }
    destruct (IH t1 _ (d0 ++ [f]) R1 ND') as (t2 & a2 & E2 & R2 & A1 & A2 & A3 & A4 & A5).
    { intros g Hg. rewrite K by congruence. apply HF. cbn; auto. } { intros g r d Hg. intros (c & Hc & Hi). apply (HR g r d). cbn; auto. exists c. auto. }
    exists t2, a2. rewrite <- app_assoc in E2. cbn [app] in E2. split. exact E2. split; auto. split. rewrite A1. auto. split. rewrite A2. auto. split. rewrite A3. auto. split.
    + intros g Hg. rewrite A4 by (intros X; apply Hg; cbn; auto). apply K. intros ->. apply Hg. cbn; auto.
    + intros g [<-|Hg]; [|apply A5; auto]. rewrite A4 by auto. ra. unfold kill. rewrite upd_same, Hb. eauto.
Qed.
Lemma shrink_none : forall t a e v l, inv t a -> (forall f, In f l -> exists b, a_f a f = Some (false, b)) -> shrink t e v l = Ok t.
Proof.
  intros t a e v l I H. unfold shrink. induction l as [|f l IH]; cbn [foldM]. auto. destruct (H f (or_introl eq_refl)) as (b & Hb). destruct (get_f t a f I ltac:(congruence)) as (x & Ex & Ax).
  unfold getf. rewrite Ex. cbn [bind]. replace (f_live x) with false. cbn [negb bind]. apply IH. intros g Hg. apply H. cbn; auto. rewrite Hb in Ax. unfold fview in Ax. congruence.
Qed.

(** ** No faces to merge *)

Lemma face_twin_none : forall gid ghost t face fedges l, (forall f, In f l -> f <> NULL -> f <> face -> exists l2, MF_Edges t f 1 NULL = Ok l2 /\ (ZL fedges =? ZL l2) && forallb (fun g => mem g fedges) l2 = false) ->
  face_twin gid ghost t face fedges l = Ok None.
Proof.
  intros gid ghost t face fedges l. induction l as [|f l IH]; intros H; cbn [face_twin]. auto. rewrite IH by (intros; apply H; cbn; auto).
  destruct (Z.eqb_spec f NULL) as [|N1]; cbn [orb]. auto. destruct (Z.eqb_spec f face) as [|N2]. auto. destruct (H f (or_introl eq_refl) N1 N2) as (l2 & E & B). rewrite E. cbn [bind]. rewrite B. auto.
Qed.
Lemma merge_faces_none : forall cls gid ghost t flag l (fe : ptr -> list ptr), (forall f, In f l -> MF_Edges t f 1 NULL = Ok (fe f) /\ NoDup (fe f)) ->
  (forall f f', In f l -> In f' l -> (forall g, In g (fe f) <-> In g (fe f')) -> f = f') -> merge_faces cls gid ghost t flag l = Ok (t, l, [], []).
Proof.
  intros cls gid ghost t flag l fe HE HU. unfold merge_faces. assert (G : forall is, (forall i, In i is -> 0 <= i < ZL l) -> foldM (fun '(t, l, dels, prs) i =>
      face <- lent l i ;;
      if face =? NULL then Ok (t, l, dels, prs) else
      fedges <- MF_Edges t face 1 NULL ;;
      o <- face_twin gid ghost t face fedges l ;;
      match o with
      | None => Ok (t, l, dels, prs)
      | Some face2 =>
          ' (t, _, _) <- MFs_Merge cls t [] face face2 flag ;;
          Ok (t, blank1 face2 l, dels ++ [face2], prs ++ [(face2, face)])
      end) (t, l, [], []) is = Ok (t, l, [], [])).
  2: { apply G. intros i Hi. apply zrange_In in Hi. exact Hi. }
  induction is as [|i is IH]; intros HI; cbn [foldM]. auto. pose proof (HI i (or_introl eq_refl)) as Hi. unfold lent at 1. replace (i <? 0) with false by lia. cbn [bind].
  assert (IN : In (nth (Z.to_nat i) l NULL) l) by (apply nth_In; unfold ZL in Hi; lia). set (f := nth (Z.to_nat i) l NULL) in *. destruct (f =? NULL). { cbn [bind]. apply IH. intros; apply HI; cbn; auto. }
  destruct (HE f IN) as [E ND]. rewrite E. cbn [bind]. rewrite face_twin_none. { cbn [bind]. apply IH. intros; apply HI; cbn; auto. }
  intros f' Hf' _ Nf. destruct (HE f' Hf') as [E' ND']. exists (fe f'). split; auto. apply not_true_iff_false. intros X. apply andb_true_iff in X. destruct X as [X1 X2]. apply Nf. symmetry. apply HU; auto.
  assert (I1 : incl (fe f') (fe f)). { intros g Hg. rewrite forallb_forall in X2. apply mem_In. auto. }
  assert (I2 : incl (fe f) (fe f')). { apply NoDup_length_incl; auto. unfold ZL in X1. lia. } intros g. split; auto.
Qed.
