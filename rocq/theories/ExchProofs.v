(** Proofs about the exchange of values: adjacency data, buffers, searches. *)
From Coq Require Import ZArith List Lia Bool Arith ZifyBool ZifyNat Sorting.Sorted.
From Verif Require Import Base BaseProofs SortModel AttModel TopoModel ParModel ParProps CommModel CommProofs CommProofs2 ExchModel.
Import ListNotations.
Open Scope Z_scope.

(** ** Adjacency data of all ranks *)
Record adjf (n : Z) (ms : Z -> pmesh) (gh : Z -> Z -> list Z) (ov : Z -> Z -> Z) (flag : Z -> Z -> Z -> bool) (G : Z -> list Z) : Prop := {
  af_g : forall p q k, on n p -> on n q -> 0 <= k <= 3 -> MESH_Has_Ghosts_From_Prtn (ms p) q k = Ok (Z.b2z (flag p q k));
  af_o : forall p q k, on n p -> on n q -> 0 <= k <= 3 -> MESH_Has_Overlaps_On_Prtn (ms q) p k = Ok (Z.b2z (flag p q k));
  af_self : forall p k, on n p -> 0 <= k <= 3 -> flag p p k = false;
  af_gh : forall p q k, on n p -> on n q -> 0 <= k <= 3 -> q <> p -> In q (gh p k) -> flag p q k = true;
  af_G : forall p, on n p -> MESH_GhostPrtns (ms p) = Ok (ms p, G p);
  af_nd : forall p, on n p -> NoDup (G p);
  af_in : forall p q, on n p -> (In q (G p) <-> on n q /\ exists k, 0 <= k <= 3 /\ flag p q k = true);
  af_num : forall p q k, on n p -> In q (G p) -> 0 <= k <= 3 -> MESH_Num_Recv_From_Prtn (ms p) q k = Ok (ov q k) }.

Definition zfun {A} (f : Z -> A) : nat -> A := fun i => f (Z.of_nat i).

Lemma rounds_adjf : forall N l gh ov ms Ms, (2 <= N)%nat -> Forall (fun g => ghok N (fst g)) (l ++ [(zfun gh, zfun ov)]) -> rounds (fresh N) (l ++ [(zfun gh, zfun ov)]) = Ok Ms ->
  (forall p, on (Z.of_nat N) p -> ms p = nth (Z.to_nat p) Ms pmesh_new) -> exists flag G, adjf (Z.of_nat N) ms gh ov flag G.
Proof.
  intros N l gh ov ms Ms Hn HF HR Hm.
  destruct (rounds_spec N (l ++ [(zfun gh, zfun ov)]) (fun _ => ps0) (fresh N) Hn (fresh_wok N) HF) as [ms' [S' [A [[W1 W2] [B C]]]]]. rewrite HR in A. inversion A; subst ms'. clear A.
  set (n := Z.of_nat N) in *.
  assert (NAT : forall p, on n p -> (Z.to_nat p < N)%nat /\ Z.of_nat (Z.to_nat p) = p) by (unfold on, n; intros; lia).
  assert (W : forall p, on n p -> finv p n (S' (Z.to_nat p)) (ms p) /\ rinv (S' (Z.to_nat p)) (ms p)). { intros p Hp. destruct (NAT p Hp) as [H1 H2]. rewrite Hm by auto. rewrite <- H2 at 1. apply W2; auto. }
  assert (AN : forall s p k, 0 <= k <= 3 -> answer (sg s p) k = sg s p k /\ answer (so s p) k = so s p k).
  { intros. unfold answer. replace (k =? 4) with false by lia. replace (k =? 5) with false by lia. replace (k =? 6) with false by lia. auto. }
  exists (fun p q k => sg (S' (Z.to_nat p)) q k), (fun p => match si (S' (Z.to_nat p)) with Some (G, _) => G | None => [] end).
  assert (SG : forall p q k, on n p -> on n q -> 0 <= k <= 3 -> sg (S' (Z.to_nat p)) q k = true <-> q <> p /\ exists g, In g (l ++ [(zfun gh, zfun ov)]) /\ In q (fst g (Z.to_nat p) k)).
  { intros p q k Hp Hq Hk. destruct (NAT p Hp) as [H1 H2]. destruct (B (Z.to_nat p) q k H1 Hq Hk) as [B1 _]. rewrite B1, H2. cbn [ps0 sg]. split. intros [X|X]; [discriminate|auto]. auto. }
  assert (SI : forall p, on n p -> exists G c, si (S' (Z.to_nat p)) = Some (G, c) /\ forall q, (In q G <-> 0 <= q < n /\ anyg (S' (Z.to_nat p)) q = true) /\ forall k, In q G -> 0 <= k <= 3 -> c q k = ov q k).
  { intros p Hp. destruct (NAT p Hp) as [H1 H2]. destruct (C l (zfun gh) (zfun ov) (Z.to_nat p) eq_refl H1) as [G [c [C1 C2]]]. exists G, c. split; auto. intros q. destruct (C2 q) as [C3 C4]. split; auto. intros k Hq Hk. rewrite C4 by auto. unfold zfun. apply C3 in Hq. rewrite Z2Nat.id; auto. unfold n in Hq. lia. }
  assert (AG : forall p q, on n p -> on n q -> (anyg (S' (Z.to_nat p)) q = true <-> exists k, 0 <= k <= 3 /\ sg (S' (Z.to_nat p)) q k = true)).
  { intros p q Hp Hq. unfold anyg. rewrite !orb_true_iff. split. intros [[[X|X]|X]|X]; eexists; (split; [|exact X]); lia. intros (k & Hk & X). assert (k = 0 \/ k = 1 \/ k = 2 \/ k = 3) as [->|[->|[->| ->]]] by lia; auto. }
  constructor.
  - intros p q k Hp Hq Hk. destruct (W p Hp) as [I _]. rewrite (hasG_spec _ _ _ _ _ _ I) by (unfold on, n in *; lia). destruct (AN (S' (Z.to_nat p)) q k Hk) as [-> _]. auto.
  - intros p q k Hp Hq Hk. destruct (W q Hq) as [I _]. rewrite (hasO_spec _ _ _ _ _ _ I) by (unfold on, n in *; lia). destruct (AN (S' (Z.to_nat q)) p k Hk) as [_ ->]. f_equal. f_equal.
    destruct (NAT q Hq) as [H1 H2]. destruct (B (Z.to_nat q) p k H1 Hp Hk) as [_ B2]. rewrite H2 in B2. destruct B2 as [B2 B3]; [cbn; discriminate|].
    assert (l ++ [(zfun gh, zfun ov)] <> []) as NE by (destruct l; discriminate). specialize (B3 NE). destruct (so (S' (Z.to_nat q)) p k), (sg (S' (Z.to_nat p)) q k); auto. symmetry. auto.
  - intros p k Hp Hk. destruct (sg (S' (Z.to_nat p)) p k) eqn:E; auto. apply SG in E; auto. destruct E as [E _]. congruence.
  - intros p q k Hp Hq Hk Hne Hi. apply SG; auto. split; auto. exists (zfun gh, zfun ov). split. rewrite in_app_iff. cbn. auto. cbn. unfold zfun. destruct (NAT p Hp) as [_ ->]. auto.
  - intros p Hp. destruct (SI p Hp) as (G & c & E & _). rewrite E. destruct (W p Hp) as [_ R]. unfold rinv in R. rewrite E in R. destruct R as (cs & R1 & R2 & R3 & R4). unfold MESH_GhostPrtns. rewrite R1. cbn [bind]. rewrite R1. unfold rdl. cbn [length]. replace ((0 <=? 0) && (0 <? Z.of_nat (S (length (G ++ cs))))) with true by lia. change (Z.to_nat 0) with 0%nat. cbn [nth bind]. rewrite app_length.
    replace ((0 <=? Z.of_nat (length G)) && (1 + Z.of_nat (length G) <=? Z.of_nat (S (length G + length cs)))) with true by lia. cbn [skipn]. rewrite Nat2Z.id, firstn_app, Nat.sub_diag, firstn_all. cbn [firstn]. rewrite app_nil_r. auto.
  - intros p Hp. destruct (SI p Hp) as (G & c & E & _). rewrite E. destruct (W p Hp) as [_ R]. unfold rinv in R. rewrite E in R. destruct R as (cs & R1 & R2 & R3 & R4). auto.
  - intros p q Hp. destruct (SI p Hp) as (G & c & E & H). rewrite E. destruct (H q) as [H1 _]. rewrite H1. split. intros [Hq X]. split; auto. apply AG; auto. intros [Hq X]. split; auto. apply AG; auto.
  - intros p q k Hp Hi Hk. destruct (SI p Hp) as (G & c & E & H). rewrite E in Hi. destruct (H q) as [H1 H2]. destruct (W p Hp) as [I R]. rewrite (num_recv_spec _ _ _ _ _ _ I R) by auto. rewrite E. rewrite (proj2 (existsb_In _ _) Hi). cbn [negb]. rewrite orb_false_r.
    assert (Hq : on n q) by (apply H1 in Hi; unfold on; tauto). destruct (Z.eqb_spec q p) as [->|Ne]; [|rewrite H2; auto]. exfalso. apply H1 in Hi. destruct Hi as [_ Hi]. apply AG in Hi; auto. destruct Hi as (k' & Hk' & X). apply SG in X; auto. destruct X. congruence.
Qed.

(** ** Bringing the adjacency data up to date *)
Lemma mapM_nth : forall A B (f : A -> result B) d e l r, mapM f l = Ok r -> length r = length l /\ forall i, (i < length l)%nat -> f (nth i l d) = Ok (nth i r e).
Proof.
  intros A B f d e. induction l as [|x l IH]; intros r H; cbn [mapM] in H. inversion H. split; auto. cbn. lia. destruct (f x) eqn:E; cbn [bind] in H; try discriminate. destruct (mapM f l) as [r'| | |] eqn:E'; cbn [bind] in H; try discriminate. inversion H; subst. destruct (IH r' eq_refl) as [L X]. split. cbn. lia. intros [|i] Hi; cbn [nth]; auto. apply X. cbn in Hi. lia.
Qed.
Lemma mapiM_nth : forall A B (f : Z -> A -> result B) d e l z r, mapiM f z l = Ok r -> length r = length l /\ forall i, (i < length l)%nat -> f (z + Z.of_nat i) (nth i l d) = Ok (nth i r e).
Proof.
  intros A B f d e. induction l as [|x l IH]; intros z r H; cbn [mapiM] in H. inversion H. split; auto. cbn. lia. destruct (f z x) eqn:E; cbn [bind] in H; try discriminate. destruct (mapiM f (z + 1) l) as [r'| | |] eqn:E'; cbn [bind] in H; try discriminate. inversion H; subst. destruct (IH (z + 1) r' E') as [L X]. split. cbn. lia. intros [|i] Hi; cbn [nth]. rewrite Z.add_0_r. auto. replace (z + Z.of_nat (S i)) with (z + 1 + Z.of_nat i) by lia. apply X. cbn in Hi. lia.
Qed.
Lemma map_ranks_nth : forall A (f : Z -> A) l d N, length l = N -> (forall i, (i < N)%nat -> f (Z.of_nat i) = nth i l d) -> map f (ranks (Z.of_nat N)) = l.
Proof.
  intros A f l d N L H. unfold ranks. rewrite Nat2Z.id, map_map. apply nth_ext with (d := d) (d' := d). rewrite map_length, seq_length. auto. intros i Hi. rewrite map_length, seq_length in Hi. rewrite (nth_indep _ d (f (Z.of_nat 0))) by (rewrite map_length, seq_length; auto). rewrite (map_nth (fun i => f (Z.of_nat i))), seq_nth by auto. apply H. auto.
Qed.

(** What the ranks know about the ghosts and overlaps they have now. *)
Definition gh_of (xs : Z -> xrank) (p k : Z) : list Z := map (x_mas (xs p)) (x_gh (xs p) k).
Definition ov_of (xs : Z -> xrank) (p k : Z) : Z := Z.of_nat (length (x_ov (xs p) k)).

(** The adjacency data come from earlier updates; if all ranks call them current,
    the last update was for the present ghosts and overlaps. *)
Definition adj_history (N : nat) (xs : Z -> xrank) : Prop :=
  exists l Ms, rounds (fresh N) l = Ok Ms /\ Forall (fun g => ghok N (fst g)) (l ++ [(zfun (gh_of xs), zfun (ov_of xs))]) /\
    (forall p, on (Z.of_nat N) p -> x_p (xs p) = nth (Z.to_nat p) Ms pmesh_new) /\ (forall p, on (Z.of_nat N) p -> x_cur (xs p) = 0 \/ x_cur (xs p) = 1) /\
    ((forall p, on (Z.of_nat N) p -> x_cur (xs p) = 1) -> exists l', l = l' ++ [(zfun (gh_of xs), zfun (ov_of xs))]).

Lemma rounds_app : forall a b ms, rounds ms (a ++ b) = (m <- rounds ms a ;; rounds m b).
Proof. induction a as [|[g o] a IH]; intros b ms; cbn [app rounds bind]; auto. destruct (MESH_Update_ParallelAdj (mkw ms g o)); cbn [bind]; auto. Qed.
Lemma min_all_01 : forall (c : Z -> Z) n, 0 < n -> (forall p, on n p -> c p = 0 \/ c p = 1) -> (min_all (map (fun p => [c p]) (ranks n)) = 0 /\ exists p, on n p /\ c p = 0) \/ (min_all (map (fun p => [c p]) (ranks n)) = 1 /\ forall p, on n p -> c p = 1).
Proof.
  intros c n Hn H. unfold min_all. assert (E : concat (map (fun p => [c p]) (ranks n)) = map c (ranks n)) by (generalize (ranks n); induction l as [|x l IH]; cbn; auto; rewrite IH; auto). rewrite E.
  assert (X : forall l a, (a = 0 \/ a = 1) -> (forall p, In p l -> c p = 0 \/ c p = 1) -> (fold_left Z.min (map c l) a = 0 /\ (a = 0 \/ exists p, In p l /\ c p = 0)) \/ (fold_left Z.min (map c l) a = 1 /\ a = 1 /\ forall p, In p l -> c p = 1)).
  { induction l as [|x l IH]; intros a Ha Hl; cbn [map fold_left]. destruct Ha; subst; auto. right. split; auto. split; auto. intros p [].
    destruct (IH (Z.min a (c x))) as [[A B]|(A & B & D)]. destruct (Hl x (or_introl eq_refl)); lia. intros p Hp. apply Hl. cbn. auto.
    - left. split; auto. destruct B as [B|(p & Hp & B)]. destruct Ha as [->|Ha]; auto. right. exists x. cbn. split; auto. destruct (Hl x (or_introl eq_refl)); lia. right. exists p. cbn. auto.
    - right. split; auto. assert (c x = 1) by (destruct (Hl x (or_introl eq_refl)); lia). split. lia. intros p [->|Hp]; auto. }
  destruct (ranks n) as [|r l] eqn:R. { exfalso. assert (In 0 (ranks n)) by (apply in_ranks; unfold on; lia). rewrite R in H0. contradiction. }
  assert (IN : forall p, In p (r :: l) <-> on n p) by (intros p; rewrite <- R; apply in_ranks). cbn [map]. destruct (X l (c r)) as [[A B]|(A & B & D)]. apply H, IN. cbn. auto. intros p Hp. apply H, IN. cbn. auto.
  - left. split; auto. destruct B as [B|(p & Hp & B)]. exists r. split; auto. apply IN. cbn. auto. exists p. split; auto. apply IN. cbn. auto.
  - right. split; auto. intros p Hp. apply IN in Hp. destruct Hp as [->|Hp]; auto.
Qed.

Lemma ensure_ok : forall N xs, (2 <= N)%nat -> adj_history N xs -> let n := Z.of_nat N in
  exists ms flag G, adjf n ms (gh_of xs) (ov_of xs) flag G /\ adj_history N (fun p => set_par (xs p) (ms p) 1) /\ forall lo, protocol n lo (lo + 3) (fun p => ensure_adj n p (xs p)) (fun p => set_par (xs p) (ms p) 1).
Proof.
  intros N xs HN (l & Ms & HR & HF & Hp & Hc & Hl) n. assert (Hn : 0 < n) by (unfold n; lia).
  destruct (min_all_01 (fun p => x_cur (xs p)) n Hn Hc) as [[M0 _]|[M1 All]].
  - (* update *)
    destruct (rounds_spec N (l ++ [(zfun (gh_of xs), zfun (ov_of xs))]) (fun _ => ps0) (fresh N) HN (fresh_wok N) HF) as [ms' [S' [A _]]].
    pose proof A as A'. rewrite rounds_app, HR in A'. cbn [bind rounds] in A'. destruct (MESH_Update_ParallelAdj (mkw Ms (zfun (gh_of xs)) (zfun (ov_of xs)))) as [ms1| | |] eqn:U; cbn [bind] in A'; try discriminate. inversion A'; subst ms1. clear A'.
    assert (LM : length Ms = N). { destruct (rounds_spec N l (fun _ => ps0) (fresh N) HN (fresh_wok N)) as [m2 [S2 [A2 [[W1 _] _]]]]. apply Forall_app in HF. tauto. rewrite HR in A2. inversion A2; subst. auto. }
    destruct (rounds_adjf N l (gh_of xs) (ov_of xs) (fun p => nth (Z.to_nat p) ms' pmesh_new) ms' HN HF A) as (flag & G & AF). auto.
    exists (fun p => nth (Z.to_nat p) ms' pmesh_new), flag, G. split. exact AF. split.
    { exists (l ++ [(zfun (gh_of xs), zfun (ov_of xs))]), ms'. split; auto. split. apply Forall_app. split; auto. apply Forall_app in HF. tauto. split. reflexivity. split. right. reflexivity. intros _. exists l. reflexivity. }
    intros lo.
    (* cut the lockstep version *)
    unfold MESH_Update_ParallelAdj in U. rewrite mkw_length, LM in U. fold n in U. replace (n =? 1) with false in U by (unfold n; lia).
    destruct (mapM (upd_a n) (mkw Ms (zfun (gh_of xs)) (zfun (ov_of xs)))) as [la| | |] eqn:Ua; cbn [bind] in U; try discriminate.
    destruct (mapiM _ 0 (map fst la)) as [lb| | |] eqn:Ub; cbn [bind] in U; try discriminate.
    destruct (mapM_nth _ _ _ r_dummy (pmesh_new, []) _ _ Ua) as [La Na]. rewrite mkw_length, LM in La, Na.
    destruct (mapiM_nth _ _ _ pmesh_new pmesh_new _ _ _ Ub) as [Lb Nb]. rewrite map_length, La in Lb, Nb.
    destruct (mapM_nth _ _ _ pmesh_new pmesh_new _ _ U) as [Lc Nc]. rewrite Lb in Lc, Nc.
    assert (RK : forall p, on n p -> nth (Z.to_nat p) (mkw Ms (zfun (gh_of xs)) (zfun (ov_of xs))) r_dummy = as_prank (xs p)). { intros p Ho. assert (Hq : (Z.to_nat p < length Ms)%nat) by (unfold on, n in Ho; lia). rewrite nth_mkw by auto. unfold as_prank, zfun. rewrite Z2Nat.id by (unfold on in Ho; lia). rewrite Hp by auto. auto. }
    assert (EA : forall p, on n p -> upd_a n (as_prank (xs p)) = Ok (nth (Z.to_nat p) la (pmesh_new, []))). { intros p Ho. rewrite <- RK by auto. apply Na. unfold on, n in Ho. lia. }
    assert (GA : map (fun p => snd (nth (Z.to_nat p) la (pmesh_new, []))) (ranks n) = map snd la). { apply (map_ranks_nth _ _ _ [] N). rewrite map_length. auto. intros i Hi. rewrite Nat2Z.id. change (@nil Z) with (snd (pmesh_new, @nil Z)) at 2. rewrite map_nth. auto. }
    assert (GB : map (fun p => ov_nums (as_prank (xs p))) (ranks n) = map ov_nums (mkw Ms (zfun (gh_of xs)) (zfun (ov_of xs)))). { apply (map_ranks_nth _ _ _ (ov_nums r_dummy) N). rewrite map_length, mkw_length. auto. intros i Hi. rewrite map_nth. f_equal. rewrite <- (Nat2Z.id i) at 2. symmetry. apply RK. unfold on, n. lia. }
    unfold ensure_adj. apply protocol_col. lia. rewrite M0. change (0 =? 0) with true. cbv iota. unfold update_adj. replace (n =? 1) with false by (unfold n; lia).
    eapply protocol_lift with (v := fun p => nth (Z.to_nat p) la (pmesh_new, [])). exact EA.
    apply protocol_ext with (qs := fun p => Col (snd (nth (Z.to_nat p) la (pmesh_new, []))) (fun ws => m <! upd_b n p (concat ws) (fst (nth (Z.to_nat p) la (pmesh_new, []))) ;; Col (ov_nums (as_prank (xs p))) (fun os => m <! upd_c n (concat os) m ;; Ret (set_par (xs p) m 1)))).
    { intros p Ho. destruct (nth (Z.to_nat p) la (pmesh_new, [])). reflexivity. }
    apply protocol_col. lia. rewrite GA.
    eapply protocol_lift with (v := fun p => nth (Z.to_nat p) lb pmesh_new).
    { intros p Ho. specialize (Nb (Z.to_nat p)). cbv beta in Nb. rewrite Z.add_0_l, Z2Nat.id in Nb by (unfold on in Ho; lia). rewrite <- Nb by (unfold on, n in Ho; lia). change pmesh_new with (fst (pmesh_new, @nil Z)) at 2. rewrite map_nth. auto. }
    apply protocol_col. lia. rewrite GB.
    eapply protocol_lift with (v := fun p => nth (Z.to_nat p) ms' pmesh_new). { intros p Ho. apply Nc. unfold on, n in Ho. lia. }
    apply protocol_ret.
  - (* already current *)
    destruct (Hl All) as (l' & ->). assert (HF' : Forall (fun g => ghok N (fst g)) (l' ++ [(zfun (gh_of xs), zfun (ov_of xs))])) by (apply Forall_app in HF; tauto).
    destruct (rounds_adjf N l' (gh_of xs) (ov_of xs) (fun p => x_p (xs p)) Ms HN HF' HR Hp) as (flag & G & AF). exists (fun p => x_p (xs p)), flag, G. split. exact AF. split.
    { exists (l' ++ [(zfun (gh_of xs), zfun (ov_of xs))]), Ms. split; [exact HR|split; [exact HF|split; [exact Hp|split; [right; reflexivity|intros _; exists l'; reflexivity]]]]. }
    intros lo. unfold ensure_adj. apply protocol_col. lia. rewrite M1. change (1 =? 0) with false. cbv iota. eapply protocol_res; [|apply protocol_ret]. intros p Ho. cbv beta. rewrite <- (All p Ho). destruct (xs p). reflexivity.
Qed.
