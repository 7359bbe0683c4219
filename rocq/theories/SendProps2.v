(** C42 on structured meshes: those with few enough cells are sent and received, the
    others are sent and never received. *)
From Coq Require Import ZArith Bool Ascii String Floats.SpecFloat List Lia Arith ZifyBool ZifyNat.
From Verif Require Import Base BaseProofs ListSpec AttModel AttProps TopoModel TopoSpec TopoProofs TopoProofs2 TopoProofs3 TopoProofs5 TopoProofs6 TopoProofs7 TopoProps TopoProps2 CellSpec GenModel GenSpec GenProps ParModel SortModel FileModel FileSpec FileProofs FileProofs2 FileProofs3 FileProofs4 SendModel SendSpec SendProofs SendProofs2 SendProofs3 SendProofs4.
Import ListNotations.
Open Scope Z_scope.

(** ** Too many regions *)
(** 516 integers are reserved for each region; if this overflows, nothing is received. *)
Lemma too_many : forall s w q, MESH_SendMesh s w = Ok q -> 2 ^ 31 <= 516 * ZL (skind s 3) -> forall w' rest x, MESH_RecvMesh w' (q ++ rest) <> Ok x.
Proof.
  intros s w q H L w' rest x R. unfold MESH_SendMesh in H.
  destruct (s_vertices s) as [mv| | |]; try discriminate H. cbn [bind] in H. destruct (s_coords s) as [mx| | |]; try discriminate H. cbn [bind] in H. destruct (s_nonvertex s) as [mn| | |]; try discriminate H. cbn [bind] in H.
  match type of H with bind ?e _ = _ => destruct e as [ma| | |]; try discriminate H end. cbn [bind] in H. injection H as <-.
  unfold MESH_RecvMesh, s_meta in R. cbn [app recv_ints length] in R. change (Z.of_nat 5 <=? 5) with true in R. cbv iota in R. cbn [bind] in R.
  match type of R with context [rda [?b; ?c; ?d; ?e; ?f] 0] => destruct (rda5 _ b c d e f) as (A0 & A1 & A2 & A3 & A4) end. rewrite A0 in R. cbn [bind] in R. rewrite A1 in R. cbn [bind] in R. rewrite A2 in R. cbn [bind] in R. rewrite A3 in R. cbn [bind] in R. rewrite A4 in R. cbn [bind] in R. clear A0 A1 A2 A3 A4. change (negb (0 =? 0)) with false in R. cbv iota in R.
  match type of R with bind ?e _ = _ => destruct e as [[s1 q1]| | |]; try discriminate R end. cbn [bind] in R.
  match type of R with bind ?e _ = _ => destruct e as [[s2 q2]| | |]; try discriminate R end. cbn [bind] in R.
  assert (N : forall r, r_nonvertex s2 (ZL (fm_e (sm_m s))) (ZL (fm_f (sm_m s))) (ZL (fm_r (sm_m s))) q2 <> Ok r).
  { intros r N. unfold r_nonvertex in N. destruct (_ =? 0) in N; [discriminate N|]. destruct (_ && _ && _) in N; [discriminate N|].
    destruct (ck32 ((2 + 3) * _)) in N; try discriminate N. cbn [bind] in N. destruct (ck32 ((1 + MAXPV2 + 3) * _)) in N; try discriminate N. cbn [bind] in N.
    change (fm_r (sm_m s)) with (skind s 3) in N. change (1 + MAXPF3 + 3) with 516 in N. unfold ck32 in N. change (- 2 ^ 31) with (- 2147483648) in *. change (2 ^ 31) with 2147483648 in *.
    match type of N with context [if ?c then Ok (516 * _) else _] => assert (c = false) as K by lia; rewrite K in N end. discriminate N. }
  match type of R with bind ?e _ = _ => destruct e as [r| | |] eqn:Er; try discriminate R end. exact (N r eq_refl).
Qed.

(** ** Structured meshes *)
Lemma pos_of_nth : forall l k p, NoDup l -> nth_error l k = Some p -> pos l p = Z.of_nat k + 1.
Proof.
  intros l k p N H. destruct (nth_error_split _ _ H) as (l1 & l2 & -> & <-). rewrite pos_app; [reflexivity|]. apply NoDup_remove_2 in N. intro I. apply N. apply in_or_app. auto.
Qed.
(** The number of an entity in its list. *)
Definition number (a : amesh) (V E F R : list ptr) (p : ptr) : Z :=
  match a_v a p, a_e a p, a_f a p with Some _, _, _ => pos V p | _, Some _, _ => pos E p | _, _, Some _ => pos F p | _, _, _ => pos R p end.
Lemma on_small : forall d c, GenSpec.on cube d c -> 0 <= fst c < 8 /\ 0 <= snd c < 2 ^ 26.
Proof.
  intros [[x y] z] c (H1 & H2 & es & vs & N1 & N2 & _). assert (B : 0 <= fst c <= 3).
  { rewrite H1. unfold ones. destruct (x =? 1), (y =? 1), (z =? 1); lia. }
  pose proof (proj1 (nth_error_Some _ _) (fun N => ltac:(rewrite N2 in N; discriminate N))) as L.
  assert (length es <= 12)%nat.
  { destruct (Z.to_nat (fst c)) as [|[|[|[|k]]]]; cbn in N1; [injection N1 as <-; cbn; lia|injection N1 as <-; cbn; lia|injection N1 as <-; cbn; lia|injection N1 as <-; cbn; lia|destruct k; discriminate N1]. }
  change (2 ^ 26) with 67108864. lia.
Qed.
Lemma grid_out : forall nx ny nz w, 1 <= nx -> 1 <= ny -> 1 <= nz ->
  3 * ((nx + 1) * (ny + 1) * (nz + 1)) < 2 ^ 31 -> 5 * (nx * (ny + 1) * (nz + 1) + (nx + 1) * ny * (nz + 1) + (nx + 1) * (ny + 1) * nz) < 2 ^ 31 ->
  34 * ((nx + 1) * ny * nz + nx * (ny + 1) * nz + nx * ny * (nz + 1)) < 2 ^ 31 -> nx * ny * nz < 2 ^ 29 ->
  exists t c a s, MESH_Gen_Structured nx ny nz = Ok (t, c) /\ sm_t s = t /\ fm_c (sm_m s) = c /\ outgoing s a w /\ ZL (skind s 3) = nx * ny * nz.
Proof.
  intros nx ny nz w Hx Hy Hz Sv Se Sf Sr. destruct (C37_volume nx ny nz Hx Hy Hz) as (t & c & a & V & E & F & R & EG & G & C & _ & (lv & Nv & Iv & Lv) & (le & Ne & Ie & Le) & (lf & Nf & If & Lf) & (lr & Nr & Ir & Lr)).
  set (n := (nx, ny, nz)) in *. pose proof (gr_reach _ _ _ _ _ _ _ _ G) as RE. pose proof (reach_sep _ _ RE) as SP. pose proof (i_w _ _ (reach_inv _ _ RE)) as W.
  pose (s := mkSM (mkFM t c (fun _ => (S754_zero false, S754_zero false, S754_zero false)) (number a lv le lf lr) lv le lf lr []) (fun p => mkPI 0 false 0 p) []).
  assert (FV : forall f b, a_f a f = Some (true, b) -> exists fb, b = Some fb /\ length fb = 4%nat).
  { intros f b Hf. destruct (proj2 (proj2 (gr_f _ _ _ _ _ _ _ _ G)) f (ex_intro _ _ Hf)) as (x & Px & <-). destruct (gr_loop _ _ _ _ _ _ _ _ G x Px) as (fb & u & cc & Q & _ & (u1 & u2 & E1 & E2) & (LA & _)). cbn [fst] in Q. rewrite Hf in Q. injection Q as ->. exists fb. split; auto.
    assert (LL : length (map V (loop_of x)) = 4%nat) by (rewrite map_length; unfold loop_of; destruct (plane (fst x)); reflexivity).
    cbn [snd walk] in E1. apply (f_equal (@length _)) in E1. subst cc. rewrite app_length in *. lia. }
  exists t, c, a, s. split; [exact EG|]. split; [reflexivity|]. split; [reflexivity|]. split; [constructor|unfold skind, kind; cbn; unfold ZL; lia].
  - exact RE.
  - intro d. unfold skind, kind. cbn [s sm_m fm_v fm_e fm_f fm_r]. destruct (d =? 0); [auto|]. destruct (d =? 1); [auto|]. destruct (d =? 2); [auto|]. destruct (d =? 3); [auto|constructor].
  - exact Iv.
  - exact Ie.
  - exact If.
  - exact Ir.
  - intros d k p H. pose proof (nth_error_In _ _ H) as I. unfold s. cbn [sm_m fm_id]. unfold number. destruct (kind_cases _ _ _ I) as [-> | [-> | [-> | ->]]]; unfold skind, kind in H, I; cbn [s sm_m fm_v fm_e fm_f fm_r Z.eqb Pos.eqb] in H, I.
    + apply Iv in I. rewrite I. apply pos_of_nth; auto.
    + apply Ie in I. destruct I as (x & I). destruct (a_v a p) eqn:Ev; [exfalso; destruct (p_v _ SP p ltac:(congruence)) as (_ & ? & _); congruence|]. rewrite I. apply pos_of_nth; auto.
    + apply If in I. destruct I as (x & I). destruct (a_v a p) eqn:Ev; [exfalso; destruct (p_v _ SP p ltac:(congruence)) as (_ & _ & ? & _); congruence|]. destruct (a_e a p) eqn:Ee; [exfalso; destruct (p_e _ SP p ltac:(congruence)) as (_ & ? & _); congruence|]. rewrite I. apply pos_of_nth; auto.
    + apply Ir in I. destruct I as (x & I). destruct (a_v a p) eqn:Ev; [exfalso; destruct (p_v _ SP p ltac:(congruence)) as (_ & _ & _ & ?); congruence|]. destruct (a_e a p) eqn:Ee; [exfalso; destruct (p_e _ SP p ltac:(congruence)) as (_ & _ & ?); congruence|].
      destruct (a_f a p) eqn:Ef; [exfalso; destruct (p_f _ SP p ltac:(congruence)) as (_ & ?); congruence|]. apply pos_of_nth; auto.
  - intros e v0 v1 He. destruct (proj2 (proj2 (gr_e _ _ _ _ _ _ _ _ G)) e (ex_intro _ _ He)) as (x & Px & <-). destruct (gr_ends _ _ _ _ _ _ _ _ G x Px) as (p & q & Q & K). rewrite He in Q. injection Q as -> ->.
    assert (NV : forall y, within n y -> V y <> NULL). { intros y Hy0. pose proof (proj1 (gr_v _ _ _ _ _ _ _ _ G) y Hy0) as L. pose proof (w_v _ W (V y) ltac:(congruence)). unfold NULL. lia. }
    destruct Px as (P1 & P2). destruct K as [[-> ->]|[-> ->]]; auto.
  - intros f Hf. destruct (FV f None Hf) as (? & Q & _). discriminate Q.
  - intros f b Hf. destruct (FV f _ Hf) as (fb & Q & L). injection Q as ->. lia.
  - intros r Hr. destruct (proj2 (proj2 (ce_r _ _ _ _ _ _ _ _ C)) r (ex_intro _ _ Hr)) as (p & Pp & <-). destruct (ce_cell _ _ _ _ _ _ _ _ C p Pp) as (b & Q & _). congruence.
  - intros d p H. unfold s. cbn [sm_m fm_c]. destruct (kind_cases _ _ _ H) as [-> | [-> | [-> | ->]]]; unfold skind, kind in H; cbn [s sm_m fm_v fm_e fm_f fm_r Z.eqb Pos.eqb] in H.
    + apply Iv in H. destruct (proj2 (proj2 (gr_v _ _ _ _ _ _ _ _ G)) p H) as (x & Px & <-). eapply on_small. eapply gr_on_v; eauto.
    + apply Ie in H. destruct (proj2 (proj2 (gr_e _ _ _ _ _ _ _ _ G)) p H) as (x & Px & <-). eapply on_small. eapply gr_on_e; eauto.
    + apply If in H. destruct (proj2 (proj2 (gr_f _ _ _ _ _ _ _ _ G)) p H) as (x & Px & <-). eapply on_small. eapply gr_on_f; eauto.
    + apply Ir in H. destruct (proj2 (proj2 (ce_r _ _ _ _ _ _ _ _ C)) p H) as (x & Px & <-). eapply on_small. eapply ce_on; eauto.
  - intros d p H. cbn [s sm_p pi_ptype pi_master]. change (2 ^ 28) with 268435456. lia.
  - unfold skind, kind. cbn [s sm_m fm_v fm_e fm_f fm_r Z.eqb Pos.eqb]. unfold ZL. rewrite Lv, Le, Lf, Lr. auto.
  - unfold skind, kind. cbn [s sm_m fm_v fm_e fm_f fm_r Z.eqb Pos.eqb]. split; intro N.
    + rewrite N in Le. cbn [length] in Le. nia.
    + rewrite N in Lf. cbn [length] in Lf. nia.
  - intros _. unfold sent_atts, satts. cbn [s sm_m fm_atts filter map]. split; [constructor|]. split; constructor.
  - intros _. cbn [s sm_sets map]. split; [constructor|]. split; constructor.
  - intros _ N. contradiction N. reflexivity.
Qed.

(** Every structured mesh of at most 4161790 cells is sent and received. *)
Theorem C42_grids : forall nx ny nz w, 1 <= nx -> 1 <= ny -> 1 <= nz -> 516 * (nx * ny * nz) < 2 ^ 31 ->
  exists t c a s, MESH_Gen_Structured nx ny nz = Ok (t, c) /\ sm_t s = t /\ fm_c (sm_m s) = c /\ ZL (skind s 3) = nx * ny * nz /\
  exists q phi, MESH_SendMesh s w = Ok q /\ forall rest, exists s' a', MESH_RecvMesh w (q ++ rest) = Ok (s', rest) /\ mesh_copy w s s' a a' phi.
Proof.
  intros nx ny nz w Hx Hy Hz L. change (2 ^ 31) with 2147483648 in L.
  assert (A1 : nx * ny <= nx * ny * nz) by nia. assert (A2 : nx * nz <= nx * ny * nz) by nia. assert (A3 : ny * nz <= nx * ny * nz) by nia. assert (A4 : nx <= nx * ny) by nia. assert (A5 : ny <= nx * ny) by nia. assert (A6 : nz <= nx * nz) by nia. assert (A7 : 1 <= nx * ny * nz) by nia.
  destruct (grid_out nx ny nz w Hx Hy Hz) as (t & c & a & s & EG & E1 & E2 & P & E3).
  - change (2 ^ 31) with 2147483648. replace ((nx + 1) * (ny + 1) * (nz + 1)) with (nx * ny * nz + nx * ny + nx * nz + ny * nz + nx + ny + nz + 1) by ring. lia.
  - change (2 ^ 31) with 2147483648. replace (nx * (ny + 1) * (nz + 1) + (nx + 1) * ny * (nz + 1) + (nx + 1) * (ny + 1) * nz) with (3 * (nx * ny * nz) + 2 * (nx * ny) + 2 * (nx * nz) + 2 * (ny * nz) + nx + ny + nz) by ring. lia.
  - change (2 ^ 31) with 2147483648. replace ((nx + 1) * ny * nz + nx * (ny + 1) * nz + nx * ny * (nz + 1)) with (3 * (nx * ny * nz) + ny * nz + nx * nz + nx * ny) by ring. lia.
  - change (2 ^ 29) with 536870912. lia.
  - exists t, c, a, s. split; [exact EG|]. split; [exact E1|]. split; [exact E2|]. split; [exact E3|].
    destruct (send_recv s a w) as (q & E & H); [split; [exact P|rewrite E3; change (2 ^ 31) with 2147483648; lia]|]. exists q, (phi (m0 s)). split; [exact E|exact H].
Qed.
Print Assumptions C42_grids.
(** 100 cells along each side. *)
Example C42_grids_ex : 516 * (100 * 100 * 100) < 2 ^ 31.
Proof. reflexivity. Qed.

(** 162 cells along each side are too many: whoever sends this mesh, no one receives
    it, while all other numbers of integers are within bounds. *)
Theorem C42_large_refuted : exists nx ny nz t c a s, 1 <= nx < 200 /\ 1 <= ny < 200 /\ 1 <= nz < 200 /\ MESH_Gen_Structured nx ny nz = Ok (t, c) /\ sm_t s = t /\ fm_c (sm_m s) = c /\
  outgoing s a false /\ satts s = [] /\ exists q, MESH_SendMesh s false = Ok q /\ forall w rest x, MESH_RecvMesh w (q ++ rest) <> Ok x.
Proof.
  destruct (grid_out 162 162 162 false ltac:(lia) ltac:(lia) ltac:(lia) eq_refl eq_refl eq_refl eq_refl) as (t & c & a & s & EG & E1 & E2 & P & E3).
  pose (s0 := mkSM (mkFM (fm_t (sm_m s)) (fm_c (sm_m s)) (fm_x (sm_m s)) (fm_id (sm_m s)) (fm_v (sm_m s)) (fm_e (sm_m s)) (fm_f (sm_m s)) (fm_r (sm_m s)) []) (sm_p s) []).
  exists 162, 162, 162, t, c, a, s0.
  assert (P' : outgoing s0 a false).
  { destruct P. constructor; auto; discriminate. }
  split; [lia|]. split; [lia|]. split; [lia|]. split; [exact EG|]. split; [exact E1|]. split; [exact E2|]. split; [exact P'|]. split; [reflexivity|].
  exists (qmsgs s0 a false). split; [exact (send_ok _ _ _ P')|].
  apply (too_many s0 false _ (send_ok _ _ _ P')). change (skind s0 3) with (skind s 3). rewrite E3. vm_compute. discriminate.
Qed.
Print Assumptions C42_large_refuted.
