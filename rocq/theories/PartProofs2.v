(** The parts of a mesh, one after the other. *)
From Coq Require Import ZArith Bool Floats.SpecFloat List Lia Arith ZifyBool ZifyNat.
From Verif Require Import Base BaseProofs ListSpec AttModel AttProps TopoModel TopoSpec TopoProofs TopoProofs2 TopoProofs3 TopoProofs5 TopoProps TopoProps2 CellProofs2 ParModel BuildProofs2 FileModel FileSpec FileProofs3 FileProofs4 SendModel SendSpec SendProofs2 PartModel PartSpec PartProofs.
Import ListNotations.
Open Scope Z_scope.

Lemma is_part_par : forall s a part k s1 s2 sub a' f, is_part s a part k s1 sub a' f -> (forall g, pi_gid (sm_p s1 g) <> 0 -> pi_gid (sm_p s2 g) = pi_gid (sm_p s1 g)) -> is_part s a part k s2 sub a' f.
Proof.
  intros s a part k s1 s2 sub a' f [] H. constructor; auto. intros d q Hq. destruct (po_gid d q Hq) as [E N]. rewrite E in *. split; auto. symmetry. auto.
Qed.
Lemma owner_one : forall s a part g i j, owner s a part g i -> owner s a part g j -> i = j.
Proof. intros s a part g i j (A & B & C) (A' & B' & C'). destruct (Z.lt_trichotomy i j) as [L|[L|L]]; auto; exfalso; [apply (C' i)|apply (C j)]; auto; lia. Qed.

Section Parts.
Variables (s : smesh) (a : amesh) (part : list Z).
Hypothesis P : partable s a.
Hypothesis Hlen : (length (cells s) <= length part)%nat.
Notation K := (skind s).
Notation c := (celldim s).
Definition pall : Type := smesh * (ptr -> list (Z * ptr)) * (Z -> Z) * list (smesh * (ptr -> ptr)).

Record GI (n : Z) (s1 : smesh) (g2l : ptr -> list (Z * ptr)) (ids : Z -> Z) (subs : list (smesh * (ptr -> ptr))) : Prop := mkGI {
  g_m : sm_m s1 = sm_m s;
  g_keep : forall g, pi_ptype (sm_p s1 g) = pi_ptype (sm_p s g) /\ pi_bdry (sm_p s1 g) = pi_bdry (sm_p s g);
  g_len : Z.of_nat (length subs) = n;
  g_own : forall d g, d < c -> In g (K d) -> 0 <= pi_master (sm_p s1 g) <= n /\ ((pi_master (sm_p s1 g) = 0 /\ forall j, 0 <= j < n -> ~ inpart s a part j g) \/ (pi_master (sm_p s1 g) <> 0 /\ owner s a part g (pi_master (sm_p s1 g) - 1)));
  g_cell : forall i g j, nth_error (cells s) i = Some g -> nth_error part i = Some j -> 0 <= j < n -> pi_master (sm_p s1 g) = j;
  g_ids : forall d, numbered s d (fun g => pi_gid (sm_p s1 g)) (ids d);
  g_mg : forall d g, d < c -> In g (K d) -> pi_master (sm_p s1 g) <> 0 -> pi_gid (sm_p s1 g) <> 0;
  g_init : forall g, pi_gid (sm_p s g) <> 0 -> pi_gid (sm_p s1 g) = pi_gid (sm_p s g);
  g_list : forall g j l, In (j, l) (g2l g) <-> 0 <= j /\ exists sub f d, nth_error subs (Z.to_nat j) = Some (sub, f) /\ In l (skind sub d) /\ f l = g;
  g_once : forall g, NoDup (map fst (g2l g));
  g_sub : forall j sub f, nth_error subs j = Some (sub, f) -> exists a', is_part s a part (Z.of_nat j) s1 sub a' f }.

Definition copies (cell : Z -> pst -> ptr -> result pst) : Prop := forall k g2l0 M0 G0, 0 <= k < 2 ^ 29 - 1 -> (forall d g, d < c -> In g (K d) -> 0 <= M0 g <= k) -> (forall g x, In x (g2l0 g) -> fst x <> k) ->
  forall o st a' g, SI s a part k g2l0 M0 G0 [] o st a' -> In g (K c) -> inpart s a part k g -> g2l0 g = [] -> nocopy o st g -> exists st2 o2 a2, cell k st g = Ok st2 /\ SI s a part k g2l0 M0 G0 [] o2 st2 a2 /\ celled s o st o2 st2 g.

Lemma one_ok : forall cell, copies cell -> forall k s1 g2l ids subs, 0 <= k < 2 ^ 29 - 1 -> GI k s1 g2l ids subs ->
  exists s2 g2l2 ids2 subs2, one_part cell (cells s) part (s1, g2l, ids, subs) k = Ok (s2, g2l2, ids2, subs2) /\ GI (k + 1) s2 g2l2 ids2 subs2.
Proof using P Hlen.
  intros cell HC k s1 g2l ids subs Hk G. set (M0 := fun g => pi_master (sm_p s1 g)). set (G0 := fun g => pi_gid (sm_p s1 g)).
  assert (HM0 : forall d g, d < c -> In g (K d) -> 0 <= M0 g <= k) by (intros d g D Hg; apply (g_own _ _ _ _ _ G _ _ D Hg)).
  pose proof (g_len _ _ _ _ _ G) as LN.
  assert (LJ : forall g j l, In (j, l) (g2l g) -> 0 <= j < k). { intros g j l H. apply (g_list _ _ _ _ _ G) in H. destruct H as (J0 & sub & f & d & E & _). assert (nth_error subs (Z.to_nat j) <> None) by congruence. apply nth_error_Some in H. lia. }
  assert (Hg0 : forall g x, In x (g2l g) -> fst x <> k). { intros g [j l] H. apply LJ in H. cbn [fst]. lia. }
  assert (IJ : forall g j l, In (j, l) (g2l g) -> inpart s a part j g). { intros g j l H. apply (g_list _ _ _ _ _ G) in H. destruct H as (J0 & sub & f & d & E & Hl & Fl). destruct (g_sub _ _ _ _ _ G _ _ _ E) as (a' & IP). rewrite Z2Nat.id in IP by auto. apply (po_onto _ _ _ _ _ _ _ _ IP d g). eauto. }
  assert (Hnew : forall i g, nth_error (cells s) i = Some g -> nth_error part i = Some k -> g2l g = []).
  { intros i g Ei Pi. destruct (g2l g) as [|[j l] r] eqn:E; auto. exfalso. assert (H : In (j, l) (g2l g)) by (rewrite E; left; auto). pose proof (LJ _ _ _ H). pose proof (cell_once s a part P _ _ _ Ei (IJ _ _ _ H)) as Q. rewrite Pi in Q. inversion Q. lia. }
  assert (Hown : forall d g, d < c -> In g (K d) -> (M0 g = 0 /\ forall j, 0 <= j < k -> ~ inpart s a part j g) \/ (M0 g <> 0 /\ owner s a part g (M0 g - 1))) by (intros d g D Hg; apply (g_own _ _ _ _ _ G _ _ D Hg)).
  set (st0 := mkPst s1 g2l ids empty_smesh (fun _ => NULL)).
  assert (B0 : begun s g2l M0 G0 st0). { split; [apply G|]. split; [apply G|]. split; [auto|]. split; [auto|]. split; [auto|]. split; [auto|]. split; [apply (g_ids _ _ _ _ _ G)|apply (g_mg _ _ _ _ _ G)]. }
  destruct (cell_ok s a part k g2l M0 G0 P Hk HM0 Hg0 Hlen Hnew cell (HC k g2l M0 G0 Hk HM0 Hg0) st0 B0) as (st & o & a' & E & I & TK).
  unfold one_part. change (mkPst s1 g2l ids empty_smesh (fun _ : Z => NULL)) with st0. rewrite E. cbn [bind].
  exists (ps_par st), (ps_g2l st), (ps_ids st), (subs ++ [(ps_sub st, ps_l2g st)]). split; auto. pose proof I as [T B].
  pose proof (part_done s a part k g2l M0 G0 P Hk HM0 Hg0 Hlen Hnew Hown o st a' I TK) as PD.
  assert (GK : forall g, pi_gid (sm_p s1 g) <> 0 -> pi_gid (sm_p (ps_par st) g) = pi_gid (sm_p s1 g)) by (intros g Hg; apply (b_gkeep _ _ _ _ _ _ _ _ B g Hg)).
  assert (LS : length subs = Z.to_nat k) by lia.
  constructor.
  - apply (b_m _ _ _ _ _ _ _ _ B).
  - apply (b_keep _ _ _ _ _ _ _ _ B).
  - rewrite app_length. cbn [length]. lia.
  - intros d g D Hg. apply (masters_done s a part k g2l M0 G0 P Hk HM0 Hg0 Hlen Hnew Hown o st a' I TK d g D Hg).
  - intros i g j Ei Pi Hj. destruct TK as [TK1 TK2]. destruct (Z.eq_dec j k) as [->|N].
    + destruct (TK2 i g) as (q & Hq & <-); auto. { apply nth_error_Some. congruence. } apply (b_cell _ _ _ _ _ _ _ _ B _ Hq).
    + rewrite <- (g_cell _ _ _ _ _ G i g j) by (auto; lia). apply (b_mnot _ _ _ _ _ _ _ _ B). intros d q Hq Eq. destruct (t_o _ _ _ _ _ _ _ _ T _ _ Hq) as [_ Iq]. rewrite Eq in Iq. pose proof (cell_once s a part P _ _ _ Ei Iq) as Q. rewrite Pi in Q. congruence.
  - apply (b_ids _ _ _ _ _ _ _ _ B).
  - apply (b_mg _ _ _ _ _ _ _ _ B).
  - intros g Hg. rewrite <- (g_init _ _ _ _ _ G g Hg). apply GK. rewrite (g_init _ _ _ _ _ G g Hg). auto.
  - intros g j l. rewrite (lists_done s a part k g2l M0 G0 P Hk HM0 Hg0 Hlen Hnew Hown o st a' I g j l), (g_list _ _ _ _ _ G). split.
    + intros [(J & sub & f & d & E1 & E2 & E3)|(-> & d & E2 & E3)].
      * split; auto. exists sub, f, d. split; auto. rewrite nth_error_app1; auto. apply nth_error_Some. congruence.
      * split; [lia|]. exists (ps_sub st), (ps_l2g st), d. split; auto. rewrite nth_error_app2, LS, Nat.sub_diag by lia. auto.
    + intros (J & sub & f & d & E1 & E2 & E3). destruct (Nat.lt_ge_cases (Z.to_nat j) (length subs)) as [L|L].
      * rewrite nth_error_app1 in E1 by auto. left. split; auto. exists sub, f, d. auto.
      * rewrite nth_error_app2 in E1 by auto. destruct (Z.to_nat j - length subs)%nat as [|z] eqn:Ez; [|destruct z; discriminate E1]. cbn in E1. inversion E1; subst sub f. right. split; [lia|]. exists d. auto.
  - intro g. apply (lists_once s a part k g2l M0 G0 P Hk HM0 Hg0 Hlen Hnew Hown o st a' I g). apply (g_once _ _ _ _ _ G).
  - intros j sub f Ej. destruct (Nat.lt_ge_cases j (length subs)) as [L|L].
    + rewrite nth_error_app1 in Ej by auto. destruct (g_sub _ _ _ _ _ G _ _ _ Ej) as (b & IP). exists b. eapply is_part_par; eauto.
    + rewrite nth_error_app2 in Ej by auto. destruct (j - length subs)%nat as [|z] eqn:Ez; [|destruct z; discriminate Ej]. cbn in Ej. inversion Ej; subst sub f. exists a'. replace (Z.of_nat j) with k by lia. exact PD.
Qed.

Hypothesis Hm : forall d g, d < c -> In g (K d) -> pi_master (sm_p s g) = 0.
Lemma start_ok : GI 0 s (fun _ => []) (fun _ => 1) [].
Proof using Hm Hlen.
  constructor; auto; try (intros; exfalso; lia).
  - intros d g D Hg. rewrite (Hm d g D Hg). split; [lia|]. left. split; auto. intros; lia.
  - intro d. split; [lia|]. intro Z0. split; [intros p Hp; rewrite Z0 by auto; lia|]. split; [|intros; lia]. intros p q Hp. rewrite Z0 by auto. congruence.
  - intros d g D Hg. rewrite (Hm d g D Hg). congruence.
  - intros g j l. split; [intros []|]. intros (J & sub & f & d & E & _). destruct (Z.to_nat j); discriminate E.
  - intro g. constructor.
  - intros j sub f E. destruct j; discriminate E.
Qed.
Lemma parts_ok : forall cell num, copies cell -> 0 <= num < 2 ^ 29 -> exists s2 g2l2 ids2 subs2, foldM (one_part cell (cells s) part) (s, fun _ => [], fun _ => 1, []) (zrange 0 num) = Ok (s2, g2l2, ids2, subs2) /\ GI num s2 g2l2 ids2 subs2.
Proof using P Hlen Hm.
  intros cell num HC [N0 N1]. revert N1. pattern num. apply natlike_ind; auto.
  - intros _. exists s, (fun _ => []), (fun _ => 1), []. split; [reflexivity|apply start_ok].
  - intros x Hx IH L. destruct IH as (s1 & g1 & i1 & u1 & E & G); [lia|]. unfold Z.succ. rewrite zrange_snoc by lia. rewrite foldM_app, E. cbn [bind foldM].
    destruct (one_ok cell HC x s1 g1 i1 u1 ltac:(lia) G) as (s2 & g2 & i2 & u2 & E2 & G2). exists s2, g2, i2, u2. rewrite E2. auto.
Qed.
End Parts.

Lemma dial_back_ok : forall l s, NoDup l -> sm_m (dial_back s l) = sm_m s /\ (forall p, pi_gid (sm_p (dial_back s l) p) = pi_gid (sm_p s p) /\ pi_ptype (sm_p (dial_back s l) p) = pi_ptype (sm_p s p) /\ pi_bdry (sm_p (dial_back s l) p) = pi_bdry (sm_p s p)) /\
  (forall p, ~ In p l -> pi_master (sm_p (dial_back s l) p) = pi_master (sm_p s p)) /\ (forall p, In p l -> pi_master (sm_p (dial_back s l) p) = (pi_master (sm_p s p) - 1) mod 2 ^ 29).
Proof.
  induction l as [|q l IH]; intros s ND. { split; [reflexivity|]. split; [intro p; auto|]. split; [auto|intros p []]. }
  inversion ND as [|x y Nq ND']; subst. unfold dial_back in *. cbn [fold_left]. set (s1 := set_master s q (pi_master (sm_p s q) - 1)). destruct (IH s1 ND') as (A & B & C & D). split; [rewrite A; auto|].
  assert (EQ : forall p, p <> q -> sm_p s1 p = sm_p s p) by (intros p H; unfold s1, set_master, set_pi; cbn [sm_p]; unfold zupd; destruct (Z.eqb_spec p q); congruence).
  assert (EE : pi_gid (sm_p s1 q) = pi_gid (sm_p s q) /\ pi_ptype (sm_p s1 q) = pi_ptype (sm_p s q) /\ pi_bdry (sm_p s1 q) = pi_bdry (sm_p s q) /\ pi_master (sm_p s1 q) = (pi_master (sm_p s q) - 1) mod 2 ^ 29) by (unfold s1, set_master, set_pi; cbn [sm_p]; unfold zupd; rewrite Z.eqb_refl; auto).
  destruct EE as (E1 & E2 & E3 & E4). split; [|split].
  - intro p. destruct (B p) as (B1 & B2 & B3). rewrite B1, B2, B3. destruct (Z.eq_dec p q) as [->|N]; [auto|rewrite EQ; auto].
  - intros p H. rewrite C by (intro; apply H; right; auto). rewrite EQ; auto. intros ->. apply H. left. auto.
  - intros p [<-|H]; [rewrite C by auto; auto|]. rewrite D by auto. rewrite EQ; auto. intros ->. auto.
Qed.
