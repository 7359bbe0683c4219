(** A copy of a part with its ghosts is again that part with its ghosts, and it can be sent. *)
From Coq Require Import ZArith Bool Floats.SpecFloat List Lia Arith ZifyBool ZifyNat.
From Verif Require Import Base BaseProofs ListSpec AttModel AttProps TopoModel TopoSpec TopoProofs TopoProofs2 TopoProps TopoProps2 ParModel FileModel FileSpec FileProofs4 SendModel SendSpec PartModel PartSpec PartProofs PartProofs3 PartProps GhostModel GhostSpec GhostProofs DistSpec.
Import ListNotations.
Open Scope Z_scope.

Lemma kin : forall (z : smesh) d p, In p (skind z d) -> d = 0 \/ d = 1 \/ d = 2 \/ d = 3.
Proof. intros z d p X. apply (kind_cases _ _ _ X). Qed.

Section Copied.
Variables (s : smesh) (a : amesh) (part : list Z) (k : Z) (n : nat) (s' sub : smesh) (a' : amesh) (o : ptr -> ptr).
Hypothesis P : partable s a.
Hypothesis H : is_halo s a part k n s' sub a' o.
Variables (m : smesh) (a2 : amesh) (phi : Z -> ptr -> ptr).
Hypothesis MC : mesh_copy false sub m a' a2 phi.

Definition back (q : ptr) : ptr :=
  match find (fun x => fst x =? q) (flat_map (fun d => map (fun p => (phi d p, p)) (skind sub d)) [0; 1; 2; 3]) with Some x => o (snd x) | None => NULL end.
Lemma back_phi : forall d p, In p (skind sub d) -> back (phi d p) = o p.
Proof using MC.
  intros d p Hp. unfold back. destruct (List.find _ _) as [x|] eqn:E.
  - apply List.find_some in E. destruct E as [E1 E2]. apply Z.eqb_eq in E2. apply in_flat_map in E1. destruct E1 as (d' & _ & E1). apply in_map_iff in E1. destruct E1 as (p' & <- & Hp'). cbn [fst snd] in *. destruct (mc_nd _ _ _ _ _ _ MC _ _ _ _ Hp' Hp E2) as [_ ->]. reflexivity.
  - exfalso. assert (X : (fst (phi d p, p) =? phi d p) = false).
    { apply (List.find_none _ _ E). apply in_flat_map. exists d. split; [destruct (kin _ _ _ Hp) as [-> | [-> | [-> | ->]]]; cbn; auto|]. apply in_map_iff. eauto. }
    cbn [fst] in X. rewrite Z.eqb_refl in X. discriminate.
Qed.
Lemma from : forall d q, In q (skind m d) -> exists p, In p (skind sub d) /\ q = phi d p.
Proof using MC. intros d q Hq. rewrite (mc_kind _ _ _ _ _ _ MC) in Hq. apply in_map_iff in Hq. destruct Hq as (p & <- & Hp). eauto. Qed.
Lemma into : forall d p, In p (skind sub d) -> In (phi d p) (skind m d).
Proof using MC. intros d p Hp. rewrite (mc_kind _ _ _ _ _ _ MC). apply in_map. auto. Qed.
Lemma par_phi : forall d p, In p (skind sub d) -> pi_ptype (sm_p m (phi d p)) = pi_ptype (sm_p sub p) /\ pi_master (sm_p m (phi d p)) = pi_master (sm_p sub p) /\ pi_gid (sm_p m (phi d p)) = pi_gid (sm_p sub p).
Proof using MC.
  intros d p Hp. assert (C : d < 3 \/ d = 3) by (destruct (kin _ _ _ Hp) as [-> | [-> | [-> | ->]]]; lia). destruct C as [C| ->].
  - rewrite (mc_par _ _ _ _ _ _ MC) by auto. auto.
  - rewrite (mc_rpar _ _ _ _ _ _ MC) by auto. auto.
Qed.
Lemma via_phi : forall d b, (forall x : ptr * bool, In x b -> In (fst x) (skind sub d)) -> via back (map (fun x => (phi d (fst x), snd x)) b) = via o b.
Proof using MC. intros d b Hb. unfold via. rewrite map_map. apply map_ext_in. intros x Hx. cbn [fst snd]. rewrite back_phi; auto. Qed.

Lemma copied_halo : is_halo s a part k n s' m a2 back.
Proof using H MC.
  constructor.
  - apply MC.
  - intro d. rewrite (mc_kind _ _ _ _ _ _ MC).
    assert (X : forall l, incl l (skind sub d) -> NoDup l -> NoDup (map (phi d) l)).
    { induction l as [|x l IH]; intros I ND; cbn [map]; constructor; inversion ND; subst; [|apply IH; auto; intros y Hy; apply I; right; auto].
      intro Q. apply in_map_iff in Q. destruct Q as (y & E & Hy). destruct (mc_nd _ _ _ _ _ _ MC d y d x) as [_ ->]; auto; apply I; cbn; auto. }
    apply X; [apply incl_refl|apply (ho_nd _ _ _ _ _ _ _ _ _ H)].
  - intro q. symmetry. apply MC. - intro q. symmetry. apply MC. - intro q. symmetry. apply MC. - intro q. symmetry. apply MC.
  - intros d i q Hq. rewrite (mc_kind _ _ _ _ _ _ MC), nth_error_map in Hq. destruct (nth_error (skind sub d) i) as [p|] eqn:E; [|discriminate Hq]. cbn in Hq. inversion Hq. rewrite (mc_id _ _ _ _ _ _ MC) by (eapply nth_error_In; eauto). eapply ho_id; eauto.
  - intros d g. rewrite (ho_onto _ _ _ _ _ _ _ _ _ H d g). split; [intros (q & Hq & E); exists (phi d q); split; [apply into|rewrite back_phi]; auto|].
    intros (q & Hq & E). apply from in Hq. destruct Hq as (p & Hp & ->). rewrite back_phi in E by auto. eauto.
  - intros d q d' q' Hq Hq' E. apply from in Hq, Hq'. destruct Hq as (p & Hp & ->), Hq' as (p' & Hp' & ->). rewrite !back_phi in E by auto. assert (p = p') by (eapply ho_inj; eauto). subst p'.
    assert (X : d = d'); [|subst; auto]. destruct (proj2 (ho_onto _ _ _ _ _ _ _ _ _ H d (o p)) (ex_intro _ p (conj Hp eq_refl))) as [_ _].
    apply (kinds_apart sub a' (ho_reach _ _ _ _ _ _ _ _ _ H) (ho_v _ _ _ _ _ _ _ _ _ H) (ho_e _ _ _ _ _ _ _ _ _ H) (ho_f _ _ _ _ _ _ _ _ _ H) (ho_r _ _ _ _ _ _ _ _ _ H) d d' p Hp Hp').
  - intros q Hq. apply from in Hq. destruct Hq as (p & Hp & ->). destruct (ho_ends _ _ _ _ _ _ _ _ _ H _ Hp) as (u & w & E1 & E2 & Hu & Hw). exists (phi 0 u), (phi 0 w). rewrite !back_phi by auto. split; [apply (mc_ends _ _ _ _ _ _ MC); auto|]. split; auto. split; apply into; auto.
  - intros q Hq. apply from in Hq. destruct Hq as (p & Hp & ->). destruct (ho_loop _ _ _ _ _ _ _ _ _ H _ Hp) as (b & E1 & E2 & Hb). eexists. split; [apply (mc_loop _ _ _ _ _ _ MC); eauto|]. rewrite back_phi, (via_phi 1) by auto. split; auto. intros x Hx. apply in_map_iff in Hx. destruct Hx as (y & <- & Hy). cbn [fst]. apply into. auto.
  - intros q Hq. apply from in Hq. destruct Hq as (p & Hp & ->). destruct (ho_faces _ _ _ _ _ _ _ _ _ H _ Hp) as (b & E1 & E2 & Hb). eexists. split; [apply (mc_faces _ _ _ _ _ _ MC); eauto|]. rewrite back_phi, (via_phi 2) by auto. split; auto. intros x Hx. apply in_map_iff in Hx. destruct Hx as (y & <- & Hy). cbn [fst]. apply into. auto.
  - intros q Hq. apply from in Hq. destruct Hq as (p & Hp & ->). rewrite back_phi, (mc_xyz _ _ _ _ _ _ MC) by auto. eapply ho_xyz; eauto.
  - intros d q Hq. apply from in Hq. destruct Hq as (p & Hp & ->). rewrite back_phi, (mc_class _ _ _ _ _ _ MC) by auto. eapply ho_class; eauto.
  - intros d q Hq. apply from in Hq. destruct Hq as (p & Hp & ->). destruct (par_phi _ _ Hp) as (_ & _ & ->). rewrite back_phi by auto. eapply ho_gid; eauto.
  - intros d q Hq. apply from in Hq. destruct Hq as (p & Hp & ->). destruct (par_phi _ _ Hp) as (_ & -> & _). rewrite back_phi by auto. eapply ho_master; eauto.
Qed.
Lemma copied_typed : typed s a part k n sub o -> typed s a part k n m back.
Proof using MC. intros T d q Hq. apply from in Hq. destruct Hq as (p & Hp & ->). destruct (par_phi _ _ Hp) as (-> & -> & _). rewrite back_phi by auto. exact (T d p Hp). Qed.
Lemma copied_flagged : flagged s a part k sub o -> flagged s a part k m back.
Proof using P H MC.
  intros F d q Hq. apply from in Hq. destruct Hq as (p & Hp & ->). rewrite back_phi by auto. assert (C : d < 3 \/ d = 3) by (destruct (kin _ _ _ Hp) as [-> | [-> | [-> | ->]]]; lia). destruct C as [C| ->].
  - rewrite (mc_par _ _ _ _ _ _ MC) by auto. exact (F d p Hp).
  - rewrite (mc_rpar _ _ _ _ _ _ MC) by auto. cbn [pi_bdry]. split; [discriminate|]. intros (_ & x & B & _). exfalso.
    assert (Hr : In (o p) (skind s 3)) by (apply (ho_onto _ _ _ _ _ _ _ _ _ H 3 (o p)); eauto). inversion B as [? ? U|? ? ? U]; subst; apply (up_kind s a P _ _ _ Hr) in U; apply kin in U; lia.
Qed.
End Copied.

Section Send.
Variables (s : smesh) (a : amesh) (part : list Z) (num : Z) (k : Z) (n : nat) (s' sub : smesh) (a' : amesh) (o : ptr -> ptr).
Hypothesis D : distributable s a part num.
Hypothesis Hk : 0 <= k < num.
Hypothesis H : is_halo s a part k n s' sub a' o.
Hypothesis T : typed s a part k n sub o.

Lemma sub_in : forall d q, In q (skind sub d) -> In (o q) (skind s d) /\ halo s a part k n (o q).
Proof using H. intros d q Hq. apply (ho_onto _ _ _ _ _ _ _ _ _ H). eauto. Qed.
Lemma sub_null : forall d p, In p (skind sub d) -> p <> NULL.
Proof using H.
  intros d p X. pose proof (i_w _ _ (reach_inv _ _ (ho_reach _ _ _ _ _ _ _ _ _ H))) as W. unfold NULL. destruct (kin _ _ _ X) as [-> | [-> | [-> | ->]]].
  - apply (ho_v _ _ _ _ _ _ _ _ _ H) in X. unfold live_v in X. assert (1 <= p < a_next a') by (apply (w_v _ W); congruence). lia.
  - apply (ho_e _ _ _ _ _ _ _ _ _ H) in X. destruct X as [x X]. assert (1 <= p < a_next a') by (apply (w_e _ W); congruence). lia.
  - apply (ho_f _ _ _ _ _ _ _ _ _ H) in X. destruct X as [x X]. assert (1 <= p < a_next a') by (apply (w_f _ W); congruence). lia.
  - apply (ho_r _ _ _ _ _ _ _ _ _ H) in X. destruct X as [x X]. assert (1 <= p < a_next a') by (apply (w_r _ W); congruence). lia.
Qed.
Lemma sub_size : forall d, ZL (skind sub d) <= ZL (skind s d).
Proof using H.
  intro d. unfold ZL. assert (X : (length (map o (skind sub d)) <= length (skind s d))%nat); [|rewrite map_length in X; lia]. apply NoDup_incl_length.
  - assert (X : forall l, incl l (skind sub d) -> NoDup l -> NoDup (map o l)).
    { induction l as [|x l IH]; intros I ND; cbn [map]; constructor; inversion ND; subst; [|apply IH; auto; intros y Hy; apply I; right; auto].
      intro Q. apply in_map_iff in Q. destruct Q as (y & E & Hy). assert (y = x) by (apply (ho_inj _ _ _ _ _ _ _ _ _ H d y d x); auto; apply I; cbn; auto). congruence. }
    apply X; [apply incl_refl|apply (ho_nd _ _ _ _ _ _ _ _ _ H)].
  - intros x Hx. apply in_map_iff in Hx. destruct Hx as (q & <- & Hq). apply sub_in. auto.
Qed.
Lemma inpart_num : forall j g, inpart s a part j g -> 0 <= j < num.
Proof using D. intros j g X. apply (di_range _ _ _ _ D). induction X; auto. eapply nth_error_In; eauto. Qed.
Lemma master_num : forall d q, In q (skind sub d) -> 0 <= pi_master (sm_p sub q) < num.
Proof using D H. intros d q Hq. destruct (ho_master _ _ _ _ _ _ _ _ _ H _ _ Hq) as (_ & X & _). eapply inpart_num; eauto. Qed.
Lemma halo_num : forall j g, halo s a part j n g -> 0 <= j < num.
Proof using D.
  intros j g (c & Hc & _). apply (di_range _ _ _ _ D). clear - Hc. revert c Hc. induction n as [|i IH]; cbn [within]; [intros c (x & _ & X); eapply nth_error_In; eauto|]. intros c [X|(_ & y & X & _)]; eauto.
Qed.
Lemma own_cell : exists c, In c (cells s) /\ halo s a part k n c.
Proof using D Hk.
  pose proof (di_each _ _ _ _ D k Hk) as X. apply In_nth_error in X. destruct X as [i Ei]. assert (L : (i < length (cells s))%nat) by (rewrite (di_len _ _ _ _ D); apply nth_error_Some; congruence).
  apply nth_error_Some in L. destruct (nth_error (cells s) i) as [c|] eqn:Ec; [|congruence]. exists c. split; [eapply nth_error_In; eauto|]. exists c. split; auto. clear - Ec Ei. induction n; cbn [within]; eauto.
Qed.
Lemma some_face : forall q, In q (skind sub 2) -> skind sub 1 <> [].
Proof using D H.
  intros q Hq E. destruct (ho_loop _ _ _ _ _ _ _ _ _ H _ Hq) as (b & _ & E2 & Hb). destruct b as [|x b]; [apply (di_face _ _ _ _ D) in E2; auto|]. specialize (Hb x (or_introl eq_refl)). rewrite E in Hb. destruct Hb.
Qed.
Lemma sub_some : skind sub 1 <> [] /\ skind sub 2 <> [].
Proof using D Hk H.
  destruct own_cell as (c & Hc & Hh). unfold cells in Hc. destruct (proj1 (ho_onto _ _ _ _ _ _ _ _ _ H (celldim s) c) (conj Hc Hh)) as (q & Hq & _). assert (X : exists f, In f (skind sub 2)).
  { unfold celldim in Hq. destruct (skind s 3); eauto. destruct (ho_faces _ _ _ _ _ _ _ _ _ H _ Hq) as (b & _ & E2 & Hb). destruct b as [|x b]; [exfalso; apply (di_region _ _ _ _ D) in E2; auto|]. exists (fst x). apply Hb. left. auto. }
  destruct X as (f & Hf). split; [eapply some_face; eauto|]. intro E. rewrite E in Hf. destruct Hf.
Qed.

(** It is a ghost, or of this part and shared, or of this part only, if that is decidable. *)
Hypothesis DEC : forall d q, In q (skind sub d) -> (exists j, j <> k /\ halo s a part j n (o q)) \/ (forall j, j <> k -> ~ halo s a part j n (o q)).
Lemma sub_type : forall d q, In q (skind sub d) -> pi_ptype (sm_p sub q) = 0 \/ pi_ptype (sm_p sub q) = 1 \/ pi_ptype (sm_p sub q) = 3.
Proof using T DEC. intros d q Hq. destruct (T d q Hq) as (T1 & T2 & T3). destruct (Z.eq_dec (pi_master (sm_p sub q)) k) as [E|N]; [|auto]. destruct (DEC d q Hq); auto. Qed.
Lemma sub_sendable : forall atts, sendable (mkSM (let m := sm_m sub in mkFM (fm_t m) (fm_c m) (fm_x m) (fm_id m) (fm_v m) (fm_e m) (fm_f m) (fm_r m) atts) (sm_p sub) []) a' false.
Proof using All.
  intros atts. set (z := mkSM _ _ _). assert (KE : forall d, skind z d = skind sub d) by reflexivity. pose proof (di_mesh _ _ _ _ D) as P. pose proof (di_size _ _ _ _ D) as (S0 & S1 & S2 & S3). pose proof (sub_size 0). pose proof (sub_size 1). pose proof (sub_size 2). pose proof (sub_size 3).
  split; [constructor|]; try discriminate.
  - apply (ho_reach _ _ _ _ _ _ _ _ _ H). - apply (ho_nd _ _ _ _ _ _ _ _ _ H). - apply (ho_v _ _ _ _ _ _ _ _ _ H). - apply (ho_e _ _ _ _ _ _ _ _ _ H). - apply (ho_f _ _ _ _ _ _ _ _ _ H). - apply (ho_r _ _ _ _ _ _ _ _ _ H). - apply (ho_id _ _ _ _ _ _ _ _ _ H).
  - intros e v0 v1 E. assert (He : In e (skind sub 1)) by (apply (ho_e _ _ _ _ _ _ _ _ _ H); unfold live_e; eauto). destruct (ho_ends _ _ _ _ _ _ _ _ _ H _ He) as (u & w & E1 & _ & Hu & Hw). rewrite E in E1. inversion E1; subst. split; eapply sub_null; eauto.
  - intros f E. assert (Hf : In f (skind sub 2)) by (apply (ho_f _ _ _ _ _ _ _ _ _ H); unfold live_f; eauto). destruct (ho_loop _ _ _ _ _ _ _ _ _ H _ Hf) as (b & E1 & _). congruence.
  - intros f b E. assert (Hf : In f (skind sub 2)) by (apply (ho_f _ _ _ _ _ _ _ _ _ H); unfold live_f; eauto). destruct (ho_loop _ _ _ _ _ _ _ _ _ H _ Hf) as (b' & E1 & E2 & _). assert (b' = b) by congruence. subst b'. apply (pa_loops _ _ P) in E2. unfold via in E2. rewrite map_length in E2. auto.
  - intros r E. assert (Hr : In r (skind sub 3)) by (apply (ho_r _ _ _ _ _ _ _ _ _ H); unfold live_r; eauto). destruct (ho_faces _ _ _ _ _ _ _ _ _ H _ Hr) as (b & E1 & _). congruence.
  - intros d p Hp. cbn [z sm_m fm_c]. rewrite (ho_class _ _ _ _ _ _ _ _ _ H d p Hp). apply (pa_class _ _ P d). apply sub_in. auto.
  - intros d p Hp. cbn [z sm_p]. pose proof (master_num d p Hp). pose proof (di_num _ _ _ _ D). split; [|lia]. destruct (sub_type d p Hp) as [E|[E|E]]; rewrite E; lia.
  - rewrite !KE. lia.
  - rewrite !KE. apply sub_some.
  - rewrite !KE. lia.
Qed.
End Send.
