(** Copying attributes and sets to the parts. *)
From Coq Require Import ZArith Bool Floats.SpecFloat List Lia Arith ZifyBool ZifyNat.
From Verif Require Import Base BaseProofs ListSpec AttModel TopoModel TopoProofs ParModel FileModel FileProofs4 SendModel SendSpec SendProofs4 GidProofs2 PartModel PartProofs3 CopyModel CopySpec.
Import ListNotations.
Open Scope Z_scope.

Lemma prod_eq_dec : forall x y : Z * ptr, {x = y} + {x <> y}.
Proof. intros [a b] [c d]. destruct (Z.eq_dec a c); [destruct (Z.eq_dec b d)|]; [left; congruence|right; congruence|right; congruence]. Qed.
Lemma Forall2_len2 : forall A B (P : A -> B -> Prop) l m, Forall2 P l m -> length l = length m.
Proof. induction 1; cbn; auto. Qed.
Lemma list_ext : forall A (l l' : list A), (forall n, nth_error l n = nth_error l' n) -> l = l'.
Proof.
  induction l as [|x l IH]; intros [|y l'] H; auto. - specialize (H O). discriminate. - specialize (H O). discriminate.
  - pose proof (H O) as H0. cbn in H0. inversion H0. f_equal. apply IH. intro n. apply (H (S n)).
Qed.
Lemma upd_same : forall A (l : list A) i x, nth_error l i = Some x -> upd_nth l i x = l.
Proof. intros A l i x H. apply list_ext. intro n. assert (i < length l)%nat by (apply nth_error_Some; congruence). rewrite nth_error_upd by auto. destruct (Nat.eqb_spec n i); subst; auto. Qed.
Lemma upd_twice : forall A (l : list A) i x y, upd_nth (upd_nth l i x) i y = upd_nth l i y.
Proof. intros A l. induction l as [|z l IH]; intros [|i] x y; cbn; auto. f_equal. auto. Qed.
Lemma rda_ok : forall A (l : list A) k x, nth_error l k = Some x -> rda l (Z.of_nat k) = Ok x.
Proof. intros A l k x H. unfold rda. rewrite Nat2Z.id, H. destruct (Z.of_nat k <? 0) eqn:Q; [lia|auto]. Qed.
Lemma text_refl : forall x, text_eqb x x = true.
Proof. intro x. unfold text_eqb. rewrite Nat.eqb_refl. cbn [andb]. induction x as [|c x IH]; cbn; auto. rewrite Ascii.eqb_refl. auto. Qed.

Lemma by_name_ok : forall A (nm : A -> text) l name i, first_at nm l name i -> by_name nm l name = Ok (Some i).
Proof.
  intros A nm. induction l as [|x l IH]; intros name i ((y & Hy & Ey) & H2 & H3). { destruct i; discriminate. }
  cbn [by_name]. pose proof (H3 O x ltac:(lia) eq_refl) as S0. unfold short_name. replace (Z.of_nat (length (nm x)) <=? 255) with true by lia. cbn [negb]. destruct i as [|i].
  - cbn in Hy. inversion Hy; subst y. rewrite <- Ey, text_refl. auto.
  - destruct (text_eqb name (nm x)) eqn:T. { apply text_eqb_eq in T. pose proof (H2 O x ltac:(lia) eq_refl). congruence. }
    rewrite (IH name i). { auto. } split; [exists y; auto|]. split; intros j z Hj Hz; [apply (H2 (S j)); auto; lia|apply (H3 (S j)); auto; lia].
Qed.
Lemma by_name_none : forall A (nm : A -> text) l name, (forall x, In x l -> nm x <> name /\ (length (nm x) <= 255)%nat) -> by_name nm l name = Ok None.
Proof.
  intros A nm. induction l as [|x l IH]; intros name H; cbn [by_name]; auto. destruct (H x) as [N L]; [cbn; auto|]. unfold short_name. replace (Z.of_nat (length (nm x)) <=? 255) with true by lia. cbn [negb].
  destruct (text_eqb name (nm x)) eqn:T. { apply text_eqb_eq in T. congruence. } rewrite IH; [auto|]. intros y Hy. apply H. cbn; auto.
Qed.
Lemma local_atts_ok : forall subs name li, Forall2 (fun sb i => first_at at_name (fm_atts (sm_m sb)) name i) subs li -> local_atts subs name = Ok (Some li).
Proof.
  intros subs name li H. induction H as [|sb i subs li H _ IH]; cbn [local_atts]; auto. rewrite (by_name_ok _ _ _ _ _ H). cbn [bind]. rewrite IH. auto.
Qed.
Lemma copy_fun : forall subs k l g g', copy_in subs k l g -> copy_in subs k l g' -> g = g'.
Proof. intros subs k l g g' (s1 & f1 & d1 & E1 & _ & <-) (s2 & f2 & d2 & E2 & _ & <-). rewrite E1 in E2. inversion E2. auto. Qed.

Section Atts.
Variables (s : smesh) (subs : list (smesh * (ptr -> ptr))) (g2l : ptr -> list (Z * ptr)) (a : attr) (bs : list smesh) (li : list nat).
Hypothesis LK : linked g2l subs.
Hypothesis CA : copyable s subs a.
Hypothesis NP : at_type a <> TPOINTER.
Hypothesis LB : length bs = length subs.
Hypothesis HB : Forall2 (fun sb i => first_at at_name (fm_atts (sm_m sb)) (at_name a) i /\ exists la, nth_error (fm_atts (sm_m sb)) i = Some la /\ at_type la = at_type a /\ at_ncomp la = at_ncomp a) bs li.
Notation n := (length subs).
Definition put (sb : smesh) (i : nat) (V : ptr -> option attval) : smesh :=
  match nth_error (fm_atts (sm_m sb)) i with Some la => set_atts sb (upd_nth (fm_atts (sm_m sb)) i (set_vals la V)) | None => sb end.
Definition bsk k := nth k bs empty_smesh.
Definition lik k := nth k li O.
Definition st (V : nat -> ptr -> option attval) : list smesh := map (fun k => put (bsk k) (lik k) (V k)) (seq 0 n).
Lemma base_at : forall k, (k < n)%nat -> exists la, nth_error bs k = Some (bsk k) /\ nth_error li k = Some (lik k) /\ nth_error (fm_atts (sm_m (bsk k))) (lik k) = Some la /\ at_type la = at_type a /\ at_ncomp la = at_ncomp a.
Proof using LB HB.
  intros k Hk. rewrite <- LB in Hk. assert (Hl : (k < length li)%nat) by (rewrite <- (Forall2_len2 _ _ _ _ _ HB); auto). pose proof (nth_error_nth' bs empty_smesh Hk) as E1. pose proof (nth_error_nth' li O Hl) as E2. fold (bsk k) in E1. fold (lik k) in E2.
  assert (X : forall l1 l2, Forall2 (fun sb i => first_at at_name (fm_atts (sm_m sb)) (at_name a) i /\ exists la, nth_error (fm_atts (sm_m sb)) i = Some la /\ at_type la = at_type a /\ at_ncomp la = at_ncomp a) l1 l2 -> forall k x y, nth_error l1 k = Some x -> nth_error l2 k = Some y -> exists la, nth_error (fm_atts (sm_m x)) y = Some la /\ at_type la = at_type a /\ at_ncomp la = at_ncomp a).
  { clear. induction 1 as [|x y l1 l2 [_ H] _ IH]; intros [|k] x0 y0 Ex Ey; try discriminate; [cbn in Ex, Ey; inversion Ex; inversion Ey; subst; auto|eapply IH; eauto]. }
  destruct (X _ _ HB _ _ _ E1 E2) as (la & H1 & H2 & H3). exists la. auto 6.
Qed.
Lemma st_at : forall V k, (k < n)%nat -> nth_error (st V) k = Some (put (bsk k) (lik k) (V k)).
Proof using Type. intros V k Hk. unfold st. rewrite nth_error_map. rewrite (nth_error_nth' _ O) by (rewrite seq_length; auto). cbn [option_map]. rewrite seq_nth by auto. auto. Qed.
Lemma st_len : forall V, length (st V) = n.
Proof using Type. intro V. unfold st. rewrite map_length, seq_length. auto. Qed.
Lemma st_upd : forall V k w, (k < n)%nat -> upd_nth (st V) k (put (bsk k) (lik k) w) = st (fun j => if (j =? k)%nat then w else V j).
Proof using LB.
  intros V k w Hk. apply list_ext. intro j. rewrite nth_error_upd by (rewrite st_len; auto). destruct (Nat.lt_ge_cases j n) as [L|L].
  - rewrite !st_at by auto. destruct (Nat.eqb_spec j k); subst; auto.
  - destruct (Nat.eqb_spec j k); [lia|]. rewrite !(proj2 (nth_error_None _ _)); auto; rewrite st_len; auto.
Qed.
Lemma st_begin : exists V, st V = bs /\ forall k la, (k < n)%nat -> nth_error (fm_atts (sm_m (bsk k))) (lik k) = Some la -> V k = at_val la.
Proof using LB HB.
  exists (fun k => match nth_error (fm_atts (sm_m (bsk k))) (lik k) with Some la => at_val la | None => fun _ => None end). split; [|intros k la _ ->; auto].
  apply list_ext. intro k. destruct (Nat.lt_ge_cases k n) as [L|L]. 2: { rewrite !(proj2 (nth_error_None _ _)); auto; rewrite ?st_len; lia. }
  rewrite st_at by auto. destruct (base_at k L) as (la & E1 & E2 & E3 & _). rewrite E1. f_equal. unfold put. rewrite E3. replace (set_vals la (at_val la)) with la by (destruct la; auto). rewrite upd_same by auto. destruct (bsk k) as [[] ? ?]. auto.
Qed.
Lemma put_att : forall k V, (k < n)%nat -> exists la, nth_error (fm_atts (sm_m (put (bsk k) (lik k) V))) (lik k) = Some (set_vals la V) /\ at_type la = at_type a /\ at_ncomp la = at_ncomp a /\
  forall W, set_atts (put (bsk k) (lik k) V) (upd_nth (fm_atts (sm_m (put (bsk k) (lik k) V))) (lik k) (set_vals (set_vals la V) W)) = put (bsk k) (lik k) W.
Proof using LB HB.
  intros k V Hk. destruct (base_at k Hk) as (la & E1 & E2 & E3 & T1 & T2). exists la. unfold put. rewrite E3. assert (L : (lik k < length (fm_atts (sm_m (bsk k))))%nat) by (apply nth_error_Some; congruence). split; [|split; [auto|split; [auto|]]].
  - cbn [sm_m set_atts with_m fm_atts]. rewrite nth_error_upd by auto. rewrite Nat.eqb_refl. auto.
  - intro W. cbn [sm_m set_atts with_m fm_atts]. rewrite upd_twice. auto.
Qed.

(** What is copied for an entity. *)
Definition worth g : option attval := match at_val a g with Some (AInt i) => if i =? 0 then None else Some (AInt i) | Some (ADbl x) => if is_zero x then None else Some (ADbl x) | o => o end.
Lemma worth_some : forall g v, worth g = Some v <-> at_val a g = Some v /\ nonzero v.
Proof using Type.
  intros g v. unfold worth, nonzero. destruct (at_val a g) as [[i|x|l]|].
  - destruct (Z.eqb_spec i 0); split; try discriminate; [intros [H N]; inversion H; subst; contradiction N; reflexivity|intro H; inversion H; auto|tauto].
  - destruct x as [b|b| |b m e]; cbn [is_zero]; split; try discriminate; try (intro H; inversion H; split; auto; intros; discriminate); try tauto. intros [H N]. inversion H. subst. destruct (N b). auto.
  - split; [intro H; inversion H; auto|tauto].
  - split; [discriminate|intros [H _]; discriminate].
Qed.
Lemma copies_loop : forall v ival rval g, (exists parr, (if 1 <? at_ncomp a then v <- get_vec a g ;; Ok (Some v) else Ok None) = Ok parr /\ forall la, at_type la = at_type a -> at_ncomp la = at_ncomp a -> set_value la ival rval parr = Ok v) ->
  forall L, (forall x, In x L -> 0 <= fst x < Z.of_nat n) -> forall V, exists V', foldM (copy_one a li (Z.of_nat n) ival rval g) (st V) L = Ok (st V') /\
    (forall k q, In (Z.of_nat k, q) L -> V' k q = Some v) /\ (forall k q, ~ In (Z.of_nat k, q) L -> V' k q = V k q).
Proof using LB HB.
  intros v ival rval g (parr & Ep & Hs). induction L as [|[k l] L IH]; intros HL V; cbn [foldM]. { exists V. split; auto. split; [intros k q []|auto]. }
  assert (Bk : 0 <= k < Z.of_nat n) by (apply (HL (k, l)); cbn; auto). unfold copy_one at 1. rewrite Ep. cbn [bind]. destruct ((0 <=? k) && (k <? Z.of_nat n)) eqn:Q; [|lia]. clear Q.
  set (j := Z.to_nat k). assert (Ek : k = Z.of_nat j) by (unfold j; lia). assert (Hj : (j < n)%nat) by lia. rewrite Ek.
  rewrite (rda_ok _ _ _ _ (st_at V j Hj)). cbn [bind]. destruct (base_at j Hj) as (la0 & _ & E2 & _). rewrite (rda_ok _ _ _ _ E2). cbn [bind]. destruct (put_att j (V j) Hj) as (la & E3 & T1 & T2 & Ew). rewrite (rda_ok _ _ _ _ E3). cbn [bind]. rewrite (Hs (set_vals la (V j)) T1 T2). cbn [bind]. change (at_val (set_vals la (V j))) with (V j).
  rewrite Ew. rewrite st_upd by auto. destruct (IH ltac:(intros; apply HL; cbn; auto) (fun j0 => if (j0 =? j)%nat then zupd (V j) l (Some v) else V j0)) as (V' & EV & H1 & H2). exists V'. split; [exact EV|]. split.
  - intros k' q [Q|Q]; [|auto]. inversion Q as [[Q1 Q2]]. destruct (in_dec (prod_eq_dec) (Z.of_nat k', q) L) as [I|N]; [auto|]. rewrite H2 by auto. replace k' with j by lia. rewrite Nat.eqb_refl. unfold zupd. subst q. rewrite Z.eqb_refl. auto.
  - intros k' q N. rewrite H2 by (intro Q; apply N; right; auto). destruct (Nat.eqb_spec k' j) as [->|]; auto. unfold zupd. destruct (Z.eqb_spec q l) as [->|]; auto. destruct N. left. auto.
Qed.

Definition src V := fun (dn : list ptr) (W : nat -> ptr -> option attval) =>
  (forall k q g v, In g dn -> copy_in subs k q g -> worth g = Some v -> W k q = Some v) /\
  (forall k q, (forall g v, In g dn -> copy_in subs k q g -> worth g <> Some v) -> W k q = V k q).
Lemma src_at : forall V dn dn' W, (forall g, In g dn <-> In g dn') -> src V dn W -> src V dn' W.
Proof using Type. intros V dn dn' W E [H1 H2]. split; [intros; eapply H1; eauto; apply E; auto|]. intros k q H. apply H2. intros g v Hg. apply H. apply E. auto. Qed.
Lemma ent_ok : forall V g, (forall k l, (at_type a = TVECTOR \/ at_type a = TTENSOR) -> copy_in subs k l g -> at_val a g <> None) ->
  exists V', copy_ent a li (Z.of_nat n) g2l (st V) g = Ok (st V') /\ (forall k q v, copy_in subs k q g -> worth g = Some v -> V' k q = Some v) /\ (forall k q, (copy_in subs k q g -> worth g = None) -> V' k q = V k q).
Proof using LK CA NP LB HB.
  intros V g Hf.
  assert (CI : forall k q, In (Z.of_nat k, q) (g2l g) <-> copy_in subs k q g). { intros k q. rewrite (lk_list _ _ LK), Nat2Z.id. split; [tauto|]. intro; split; auto; lia. }
  assert (BD : forall x, In x (g2l g) -> 0 <= fst x < Z.of_nat n). { intros [k l] I. apply (lk_list _ _ LK) in I as [I0 (sb & f & d & E & _)]. assert (Z.to_nat k < n)%nat by (apply nth_error_Some; congruence). cbn [fst]. lia. }
  assert (NC := ca_comp _ _ _ CA). assert (NV := ca_vals _ _ _ CA g).
  assert (FIN : forall v ival rval, (worth g = Some v \/ g2l g = []) -> (exists parr, (if 1 <? at_ncomp a then v <- get_vec a g ;; Ok (Some v) else Ok None) = Ok parr /\ forall la, at_type la = at_type a -> at_ncomp la = at_ncomp a -> set_value la ival rval parr = Ok v) ->
    exists V', foldM (copy_one a li (Z.of_nat n) ival rval g) (st V) (g2l g) = Ok (st V') /\ (forall k q v, copy_in subs k q g -> worth g = Some v -> V' k q = Some v) /\ (forall k q, (copy_in subs k q g -> worth g = None) -> V' k q = V k q)).
  { intros v ival rval Hw Hp. destruct (copies_loop v ival rval g Hp (g2l g) BD V) as (V' & E & H1 & H2). exists V'. split; [auto|]. split.
    - intros k q v' C Hv. apply CI in C. destruct Hw as [Hw|Hw]; [|rewrite Hw in C; destruct C]. assert (v' = v) by congruence. subst. auto.
    - intros k q Hn. apply H2. intro C. destruct Hw as [Hw|Hw]; [|rewrite Hw in C; destruct C]. apply CI in C. rewrite (Hn C) in Hw. discriminate Hw. }
  assert (SKIP : worth g = None -> exists V', Ok (st V) = Ok (st V') /\ (forall k q v, copy_in subs k q g -> worth g = Some v -> V' k q = Some v) /\ (forall k q, (copy_in subs k q g -> worth g = None) -> V' k q = V k q)).
  { intro Hw. exists V. split; auto. split; auto. intros k q v _ Hv. congruence. }
  assert (VEC : at_type a = TVECTOR \/ at_type a = TTENSOR -> 2 <= at_ncomp a -> (forall v, at_val a g = Some v -> exists l, v = AVec l /\ Z.of_nat (length l) = at_ncomp a) -> exists V', foldM (copy_one a li (Z.of_nat n) 0 (S754_zero false) g) (st V) (g2l g) = Ok (st V') /\ (forall k q v, copy_in subs k q g -> worth g = Some v -> V' k q = Some v) /\ (forall k q, (copy_in subs k q g -> worth g = None) -> V' k q = V k q)).
  { intros T N2 Hv. destruct (g2l g) as [|[k0 q0] r] eqn:EG.
    - cbn [foldM]. exists V. split; auto. split; auto. intros k q v C. apply CI in C. destruct C.
    - assert (C0 : In (k0, q0) (g2l g)) by (rewrite EG; cbn; auto). apply (lk_list _ _ LK) in C0 as [_ C0]. destruct (at_val a g) as [v|] eqn:EV; [|destruct (Hf _ _ T C0); auto]. destruct (Hv v eq_refl) as (l & -> & Ll).
      apply (FIN (AVec l)); [left; unfold worth; rewrite EV; auto|]. exists (Some l). replace (1 <? at_ncomp a) with true by lia. unfold get_vec. rewrite EV.
      pose proof (mapM_rda _ [] l [] 0 (at_ncomp a) eq_refl (eq_sym Ll)) as M. rewrite app_nil_r in M. change (mapM (fun k => rda l k) (zrange 0 (at_ncomp a)) = Ok l) in M. rewrite M. split; [auto|]. intros la T1 T2. unfold set_value. rewrite T1, T2. replace (Z.of_nat (length l) <? at_ncomp a) with false by lia. rewrite firstn_all2 by lia. destruct T as [ -> | -> ]; auto. }
  unfold copy_ent. destruct (at_type a) eqn:T.
  - cbn [bind]. unfold get_int. destruct (at_val a g) as [v|] eqn:EV.
    + specialize (NV v eq_refl). destruct v as [i|x|l]; try contradiction. cbn [bind]. destruct (i =? 0) eqn:Qi. { apply SKIP. unfold worth. rewrite EV, Qi. auto. }
      apply (FIN (AInt i)); [left; unfold worth; rewrite EV, Qi; auto|]. exists None. rewrite NC. split; [auto|]. intros la T1 _. unfold set_value. rewrite T1. auto.
    + cbn [bind]. apply SKIP. unfold worth. rewrite EV. auto.
  - cbn [bind]. unfold get_dbl. rewrite T. destruct (at_val a g) as [v|] eqn:EV.
    + specialize (NV v eq_refl). destruct v as [i|x|l]; try contradiction. cbn [bind]. destruct (is_zero x) eqn:Qi. { apply SKIP. unfold worth. rewrite EV, Qi. auto. }
      apply (FIN (ADbl x)); [left; unfold worth; rewrite EV, Qi; auto|]. exists None. rewrite NC. split; [auto|]. intros la T1 _. unfold set_value. rewrite T1. auto.
    + cbn [bind is_zero]. apply SKIP. unfold worth. rewrite EV. auto.
  - destruct NP. auto.
  - cbn [bind]. apply VEC; auto. intros v Ev. specialize (NV v Ev). destruct v; try contradiction. eauto.
  - cbn [bind]. apply VEC; auto. intros v Ev. specialize (NV v Ev). destruct v; try contradiction. eauto.
Qed.
Lemma ents_ok : forall V0 L, (forall g k l, In g L -> (at_type a = TVECTOR \/ at_type a = TTENSOR) -> copy_in subs k l g -> at_val a g <> None) ->
  forall dn0 V, src V0 dn0 V -> exists V', foldM (copy_ent a li (Z.of_nat n) g2l) (st V) L = Ok (st V') /\ src V0 (dn0 ++ L) V'.
Proof using LK CA NP LB HB.
  intros V0 L Hf dn0 V HV. destruct (each _ _ (fun dn x => exists V', x = st V' /\ src V0 (dn0 ++ dn) V') (copy_ent a li (Z.of_nat n) g2l) L) with (st := st V) as (x & E & V' & -> & H); [| |eauto].
  2: { exists V. rewrite app_nil_r. auto. }
  intros dn g rest x EL (W & -> & H1 & H2). destruct (ent_ok W g) as (W' & E & K1 & K2). { intros k l. apply Hf. rewrite EL. apply in_or_app. right. left. auto. }
  exists (st W'). split; [auto|]. exists W'. split; auto. rewrite app_assoc. split.
  - intros k q g' v I C Ew. destruct (Z.eq_dec g' g) as [->|NE]; [eapply K1; eauto|]. apply in_app_or in I as [I|[I|[]]]; [|congruence]. rewrite K2; [eapply H1; eauto|]. intro C'. destruct NE. eapply copy_fun; eauto.
  - intros k q Hn. rewrite K2, H2; auto. + intros g' v I. apply Hn. apply in_or_app. auto. + intro C. destruct (worth g) as [v|] eqn:Ew; auto. destruct (Hn g v); auto. apply in_or_app. right. left. auto.
Qed.
Lemma attr_ok : forall j, nth_error (fm_atts (sm_m s)) j = Some a -> first_at at_name (fm_atts (sm_m s)) (at_name a) j ->
  exists bs', MESH_CopyAttr s g2l (Z.of_nat n) bs (at_name a) = Ok (1, bs') /\ length bs' = n /\
    forall k b i, nth_error bs k = Some b -> nth_error li k = Some i -> exists b' la la', nth_error bs' k = Some b' /\ nth_error (fm_atts (sm_m b)) i = Some la /\ nth_error (fm_atts (sm_m b')) i = Some la' /\ same_but_att i b b' /\ carried s subs k a la la'.
Proof using LK CA NP LB HB.
  intros j Ej Fj. unfold MESH_CopyAttr. rewrite (by_name_ok _ _ _ _ _ Fj). cbn [bind]. rewrite (rda_ok _ _ _ _ Ej). cbn [bind].
  rewrite (local_atts_ok bs (at_name a) li). 2: { clear -HB. induction HB as [|? ? ? ? [? _]]; auto. } cbn [bind]. destruct (is_pointer (at_type a)) eqn:Q; [destruct (at_type a) eqn:T; try discriminate Q; destruct NP; auto|]. clear Q.
  destruct st_begin as (V0 & E0 & HV0).
  assert (STEP : forall d L dn V, 0 <= d <= 3 -> L = skind s d -> src V0 dn V -> exists V' K, (if (at_ent a =? d) || (at_ent a =? MALLTYPE) then foldM (copy_ent a li (Z.of_nat n) g2l) (st V) L else Ok (st V)) = Ok (st V') /\ src V0 (dn ++ K) V' /\ forall g, In g K <-> suits a d /\ In g (skind s d)).
  { intros d L dn V Bd -> HS. destruct ((at_ent a =? d) || (at_ent a =? MALLTYPE)) eqn:Q.
    - assert (su : suits a d) by (unfold suits; lia). destruct (ents_ok V0 (skind s d)) with (dn0 := dn) (V := V) as (V' & E & H); auto. { intros g k l I T C. apply (ca_full _ _ _ CA T d g k l); auto. } exists V', (skind s d). split; auto. split; auto. tauto.
    - exists V, []. rewrite app_nil_r. split; auto. split; auto. intro g. cbn. unfold suits. split; [tauto|]. intros [X _]. lia. }
  assert (S0 : src V0 [] V0) by (split; [intros k q g v []|auto]).
  destruct (STEP MVERTEX (fm_v (sm_m s)) [] V0 ltac:(unfold MVERTEX; lia) eq_refl S0) as (V1 & K1 & Q1 & H1 & J1). rewrite E0 in Q1. rewrite Q1. cbn [bind].
  destruct (STEP MEDGE (fm_e (sm_m s)) _ V1 ltac:(unfold MEDGE; lia) eq_refl H1) as (V2 & K2 & Q2 & H2 & J2). rewrite Q2. cbn [bind].
  destruct (STEP MFACE (fm_f (sm_m s)) _ V2 ltac:(unfold MFACE; lia) eq_refl H2) as (V3 & K3 & Q3 & H3 & J3). rewrite Q3. cbn [bind].
  destruct (STEP MREGION (fm_r (sm_m s)) _ V3 ltac:(unfold MREGION; lia) eq_refl H3) as (V4 & K4 & Q4 & H4 & J4). rewrite Q4. cbn [bind].
  assert (JJ : forall g, In g (((([] ++ K1) ++ K2) ++ K3) ++ K4) <-> exists d, 0 <= d <= 3 /\ suits a d /\ In g (skind s d)).
  { intro g. rewrite !in_app_iff, J1, J2, J3, J4. split.
    - intros [[[[[]|I]|I]|I]|I]; eexists; (split; [|exact I]); cbv; split; discriminate.
    - intros (d & Bd & su & I). assert (d = 0 \/ d = 1 \/ d = 2 \/ d = 3) as [ -> | [ -> | [ -> | -> ]]] by lia; tauto. }
  exists (st V4). split; [auto|]. split; [apply st_len|]. destruct H4 as [HA HB'].
  intros k b i Eb Ei. assert (Hk : (k < n)%nat) by (rewrite <- LB; apply nth_error_Some; congruence). destruct (base_at k Hk) as (la & E1 & E2 & E3 & T1 & T2). rewrite E1 in Eb. rewrite E2 in Ei. inversion Eb. inversion Ei. subst b i. clear Eb Ei.
  exists (put (bsk k) (lik k) (V4 k)), la, (set_vals la (V4 k)). split; [apply st_at; auto|]. split; [auto|]. assert (Lk : (lik k < length (fm_atts (sm_m (bsk k))))%nat) by (apply nth_error_Some; congruence). unfold put. rewrite E3. cbn [sm_m set_atts with_m fm_atts]. split; [rewrite nth_error_upd by auto; rewrite Nat.eqb_refl; auto|]. split.
  - unfold same_but_att. cbn [sm_m sm_p sm_sets set_atts with_m fm_atts]. split; [auto|]. split; [auto|]. split; [eexists; reflexivity|]. split; [apply upd_nth_length|]. intros j0 Nj. rewrite nth_error_upd by auto. destruct (Nat.eqb_spec j0 (lik k)); [contradiction|auto].
  - unfold carried. cbn [set_vals at_name at_type at_ncomp at_ent at_val]. do 4 (split; [auto|]). split.
    + intros d g q v su Bd I C Ev Nv. apply (HA k q g v); auto. * apply JJ. eauto. * apply worth_some. auto.
    + intros q Hn. rewrite HB'. * rewrite (HV0 k la); auto. * intros g v I C W. apply JJ in I as (d & Bd & su & I). apply worth_some in W as [W1 W2]. eapply Hn; eauto.
Qed.
End Atts.
