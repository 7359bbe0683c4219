(** MESH_Update_ParallelAdj by itself; as ensure_ok of ExchProofs.v. *)
From Coq Require Import ZArith List Lia Bool Arith ZifyBool ZifyNat Sorting.Sorted.
From Verif Require Import Base BaseProofs SortModel AttModel TopoModel ParModel ParProps CommModel CommProofs CommProofs2 ExchModel ExchProofs.
Import ListNotations.
Open Scope Z_scope.

Lemma update_adj_ok : forall N xs l Ms, (2 <= N)%nat -> rounds (fresh N) l = Ok Ms -> Forall (fun g => ghok N (fst g)) (l ++ [(zfun (gh_of xs), zfun (ov_of xs))]) ->
  (forall p, CommModel.on (Z.of_nat N) p -> x_p (xs p) = nth (Z.to_nat p) Ms pmesh_new) -> let n := Z.of_nat N in
  exists ms, rounds (fresh N) (l ++ [(zfun (gh_of xs), zfun (ov_of xs))]) = Ok ms /\ let ys := fun p => set_par (xs p) (nth (Z.to_nat p) ms pmesh_new) 1 in
    adj_history N ys /\ forall lo, protocol n lo (lo + 2) (fun p => update_adj n p (xs p)) ys.
Proof.
  intros N xs l Ms HN HR HF Hp n. assert (Hn : 0 < n) by (unfold n; lia).
    destruct (rounds_spec N (l ++ [(zfun (gh_of xs), zfun (ov_of xs))]) (fun _ => ps0) (fresh N) HN (fresh_wok N) HF) as [ms' [S' [A _]]].
    pose proof A as A'. rewrite rounds_app, HR in A'. cbn [bind rounds] in A'. destruct (MESH_Update_ParallelAdj (mkw Ms (zfun (gh_of xs)) (zfun (ov_of xs)))) as [ms1| | |] eqn:U; cbn [bind] in A'; try discriminate. inversion A'; subst ms1. clear A'.
    assert (LM : length Ms = N). { destruct (rounds_spec N l (fun _ => ps0) (fresh N) HN (fresh_wok N)) as [m2 [S2 [A2 [[W1 _] _]]]]. apply Forall_app in HF. tauto. rewrite HR in A2. inversion A2; subst. auto. }
    exists ms'. split; [exact A|]. split.
    { exists (l ++ [(zfun (gh_of xs), zfun (ov_of xs))]), ms'. split; auto. split. apply Forall_app. split; auto. apply Forall_app in HF. tauto. split. reflexivity. split. right. reflexivity. intros _. exists l. reflexivity. }
    intros lo.
    unfold MESH_Update_ParallelAdj in U. rewrite mkw_length, LM in U. fold n in U. replace (n =? 1) with false in U by (unfold n; lia).
    destruct (mapM (upd_a n) (mkw Ms (zfun (gh_of xs)) (zfun (ov_of xs)))) as [la| | |] eqn:Ua; cbn [bind] in U; try discriminate.
    destruct (mapiM _ 0 (map fst la)) as [lb| | |] eqn:Ub; cbn [bind] in U; try discriminate.
    destruct (mapM_nth _ _ _ r_dummy (pmesh_new, []) _ _ Ua) as [La Na]. rewrite mkw_length, LM in La, Na.
    destruct (mapiM_nth _ _ _ pmesh_new pmesh_new _ _ _ Ub) as [Lb Nb]. rewrite map_length, La in Lb, Nb.
    destruct (mapM_nth _ _ _ pmesh_new pmesh_new _ _ U) as [Lc Nc]. rewrite Lb in Lc, Nc.
    assert (RK : forall p, CommModel.on n p -> nth (Z.to_nat p) (mkw Ms (zfun (gh_of xs)) (zfun (ov_of xs))) r_dummy = as_prank (xs p)). { intros p Ho. assert (Hq : (Z.to_nat p < length Ms)%nat) by (unfold CommModel.on, n in Ho; lia). rewrite nth_mkw by auto. unfold as_prank, zfun. rewrite Z2Nat.id by (unfold CommModel.on in Ho; lia). rewrite Hp by auto. auto. }
    assert (EA : forall p, CommModel.on n p -> upd_a n (as_prank (xs p)) = Ok (nth (Z.to_nat p) la (pmesh_new, []))). { intros p Ho. rewrite <- RK by auto. apply Na. unfold CommModel.on, n in Ho. lia. }
    assert (GA : map (fun p => snd (nth (Z.to_nat p) la (pmesh_new, []))) (ranks n) = map snd la). { apply (map_ranks_nth _ _ _ [] N). rewrite map_length. auto. intros i Hi. rewrite Nat2Z.id. change (@nil Z) with (snd (pmesh_new, @nil Z)) at 2. rewrite map_nth. auto. }
    assert (GB : map (fun p => ov_nums (as_prank (xs p))) (ranks n) = map ov_nums (mkw Ms (zfun (gh_of xs)) (zfun (ov_of xs)))). { apply (map_ranks_nth _ _ _ (ov_nums r_dummy) N). rewrite map_length, mkw_length. auto. intros i Hi. rewrite map_nth. f_equal. rewrite <- (Nat2Z.id i) at 2. symmetry. apply RK. unfold CommModel.on, n. lia. }
    unfold update_adj. replace (n =? 1) with false by (unfold n; lia).
    eapply protocol_lift with (v := fun p => nth (Z.to_nat p) la (pmesh_new, [])). exact EA.
    apply protocol_ext with (qs := fun p => Col (snd (nth (Z.to_nat p) la (pmesh_new, []))) (fun ws => m <! upd_b n p (concat ws) (fst (nth (Z.to_nat p) la (pmesh_new, []))) ;; Col (ov_nums (as_prank (xs p))) (fun os => m <! upd_c n (concat os) m ;; Ret (set_par (xs p) m 1)))).
    { intros p Ho. destruct (nth (Z.to_nat p) la (pmesh_new, [])). reflexivity. }
    apply protocol_col. lia. rewrite GA.
    eapply protocol_lift with (v := fun p => nth (Z.to_nat p) lb pmesh_new).
    { intros p Ho. specialize (Nb (Z.to_nat p)). cbv beta in Nb. rewrite Z.add_0_l, Z2Nat.id in Nb by (unfold CommModel.on in Ho; lia). rewrite <- Nb by (unfold CommModel.on, n in Ho; lia). change pmesh_new with (fst (pmesh_new, @nil Z)) at 2. rewrite map_nth. auto. }
    apply protocol_col. lia. rewrite GB.
    eapply protocol_lift with (v := fun p => nth (Z.to_nat p) ms' pmesh_new). { intros p Ho. apply Nc. unfold CommModel.on, n in Ho. lia. }
    apply protocol_ret.
Qed.
