(** Copying all attributes, and copying sets. *)
From Coq Require Import ZArith Bool Floats.SpecFloat List Lia Arith ZifyBool ZifyNat.
From Verif Require Import Base BaseProofs ListSpec AttModel TopoModel TopoProofs ParModel FileModel FileSpec FileProofs4 SendModel SendSpec SendProofs4 GidProofs2 PartModel PartProofs3 CopyModel CopySpec CopyProofs.
Import ListNotations.
Open Scope Z_scope.

(** ** All attributes *)
Definition blank (a : attr) : attr := mkAttr (at_name a) (at_type a) (if is_vec (at_type a) then at_ncomp a else 1) (at_ent a) (fun _ => None).
Definition sound_att s subs a := (length (at_name a) <= 255)%nat /\ (at_type a <> TPOINTER -> copyable s subs a) /\ (at_type a = TPOINTER -> at_ncomp a = 1).
Lemma set_atts_twice : forall s l l', set_atts (set_atts s l) l' = set_atts s l'.
Proof. intros [[] ? ?] l l'. auto. Qed.
Lemma new_atts_ok : forall s subs0 L subs, (forall a, In a L -> sound_att s subs0 a) ->
  foldM (fun subs a => if negb (short_name (at_name a)) then Undef else mapM (new_att a) subs) subs L = Ok (map (fun b => set_atts b (fm_atts (sm_m b) ++ map blank L)) subs).
Proof.
  intros s subs0. induction L as [|a L IH]; intros subs H; cbn [foldM map].
  - f_equal. rewrite <- (map_id subs) at 1. apply map_ext. intros [[] ? ?]. cbn. unfold set_atts, with_m. cbn. rewrite app_nil_r. auto.
  - destruct (H a) as (H1 & H2 & H3); [cbn; auto|]. unfold short_name. replace (Z.of_nat (length (at_name a)) <=? 255) with true by lia. cbn [negb].
    assert (E : mapM (new_att a) subs = Ok (map (fun b => set_atts b (fm_atts (sm_m b) ++ [blank a])) subs)).
    { clear IH. assert (Q : is_vec (at_type a) && (at_ncomp a =? 1) = false). { destruct (at_type a) eqn:T; cbn [is_vec andb]; auto; pose proof (ca_comp _ _ _ (H2 ltac:(discriminate))) as C; rewrite T in C; lia. }
      induction subs as [|b subs IHs]; cbn [mapM map]; auto. unfold new_att at 1. rewrite Q. cbn [bind]. rewrite IHs. auto. }
    rewrite E. cbn [bind]. rewrite IH by (intros; apply H; cbn; auto). f_equal. rewrite map_map. apply map_ext. intro b. rewrite set_atts_twice. f_equal. cbn [set_atts with_m sm_m fm_atts]. rewrite <- app_assoc. auto.
Qed.
Lemma Forall2_repeat : forall A B (P : A -> B -> Prop) l x, (forall y, In y l -> P y x) -> Forall2 P l (repeat x (length l)).
Proof. induction l as [|y l IH]; intros x H; cbn; constructor; [apply H; cbn; auto|apply IH; intros; apply H; cbn; auto]. Qed.

Lemma kind_in : forall m d p, In p (kind m d) -> exists d', 0 <= d' <= 3 /\ In p (kind m d').
Proof. intros m d p I. destruct (Z.eq_dec d 0); [exists 0; subst; split; auto; lia|]. destruct (Z.eq_dec d 1); [exists 1; subst; split; auto; lia|]. destruct (Z.eq_dec d 2); [exists 2; subst; split; auto; lia|]. destruct (Z.eq_dec d 3); [exists 3; subst; split; auto; lia|]. unfold kind in I. replace (d =? 0) with false in I by lia. replace (d =? 1) with false in I by lia. replace (d =? 2) with false in I by lia. replace (d =? 3) with false in I by lia. destruct I. Qed.
Definition kin (s : smesh) (d : Z) (p : ptr) : bool := if in_dec Z.eq_dec p (skind s d) then true else false.
Lemma kin_ok : forall s d p, kin s d p = true <-> In p (skind s d).
Proof. intros s d p. unfold kin. destruct (in_dec Z.eq_dec p (skind s d)) as [I|I]; [tauto|]. split; [discriminate|intro; contradiction]. Qed.
Lemma carried_inv : forall s subs k a la la' q v,
  (forall q, (forall d g v, suits a d -> 0 <= d <= 3 -> In g (skind s d) -> copy_in subs k q g -> at_val a g = Some v -> ~ nonzero v) -> at_val la' q = at_val la q) ->
  (forall d g q v, suits a d -> 0 <= d <= 3 -> In g (skind s d) -> copy_in subs k q g -> at_val a g = Some v -> nonzero v -> at_val la' q = Some v) ->
  (forall q, at_val la q = None) -> at_val la' q = Some v ->
  exists d g, 0 <= d <= 3 /\ suits a d /\ In g (skind s d) /\ copy_in subs k q g /\ at_val a g = Some v /\ nonzero v.
Proof.
  intros s subs k a la la' q v H1 H1b H2 H3.
  assert (NO : (forall d g v, suits a d -> 0 <= d <= 3 -> In g (skind s d) -> copy_in subs k q g -> at_val a g = Some v -> ~ nonzero v) -> False). { intro N. rewrite H1, H2 in H3 by auto. discriminate H3. }
  destruct (nth_error subs k) as [[sub f]|] eqn:E. 2: { destruct NO. intros d g w _ _ _ (x & y & z & F & _). congruence. }
  destruct (worth a (f q)) as [w|] eqn:W. 2: { destruct NO. intros d g w su Bd I (x & y & z & F & _ & G) Ev Nw. rewrite E in F. inversion F. subst. assert (worth a (y q) = Some w) by (apply worth_some; auto). congruence. }
  apply worth_some in W as [W1 W2].
  destruct (existsb (fun d => kin sub d q) [0;1;2;3]) eqn:X. 2: { destruct NO. intros d g w' _ _ _ (x & y & z & F & I & _). rewrite E in F. inversion F. subst x y. clear F. cbn [existsb] in X. unfold skind in I. destruct (kind_in _ _ _ I) as (d' & B' & I'). assert (kin sub d' q = true) by (apply kin_ok; auto). assert (d' = 0 \/ d' = 1 \/ d' = 2 \/ d' = 3) as [ -> | [ -> | [ -> | -> ]]] by lia; rewrite H in X; rewrite ?orb_true_r in X; discriminate X. }
  destruct (existsb (fun d => ((at_ent a =? d) || (at_ent a =? MALLTYPE)) && kin s d (f q)) [0;1;2;3]) eqn:Y.
  - apply existsb_exists in X as (dx & _ & X). apply kin_ok in X. apply existsb_exists in Y as (d & Id & Y). apply andb_true_iff in Y as [Y1 Y2]. apply kin_ok in Y2. assert (B : 0 <= d <= 3) by (cbn in Id; lia). assert (su : suits a d) by (unfold suits; lia).
    assert (C : copy_in subs k q (f q)) by (exists sub, f, dx; auto). exists d, (f q). split; [auto|]. split; [auto|]. split; [auto|]. split; [auto|]. pose proof (H1b d (f q) q w su B Y2 C W1 W2) as G. assert (w = v) by congruence. subst w. auto.
  - destruct NO. intros d g w' su Bd I (x & y & z & F & _ & G) _ _. rewrite E in F. inversion F. subst x y g. apply kin_ok in I. assert (SB : (at_ent a =? d) || (at_ent a =? MALLTYPE) = true) by (unfold suits in su; lia). cbn [existsb] in Y.
    assert (d = 0 \/ d = 1 \/ d = 2 \/ d = 3) as [ -> | [ -> | [ -> | -> ]]] by lia; rewrite SB, I in Y; cbn [andb] in Y; rewrite ?orb_true_r in Y; discriminate Y.
Qed.

Section All.
Variables (s : smesh) (subs : list (smesh * (ptr -> ptr))) (g2l : ptr -> list (Z * ptr)).
Hypothesis LK : linked g2l subs.
Hypothesis SA : forall a, In a (fm_atts (sm_m s)) -> sound_att s subs a.
Hypothesis ND : NoDup (map at_name (fm_atts (sm_m s))).
Hypothesis NA : forall b f, In (b, f) subs -> fm_atts (sm_m b) = [].
Notation n := (length subs).
(** The submeshes after the first attributes have been copied. *)
Definition part_done (dn : list attr) (bs : list smesh) : Prop :=
  length bs = n /\ forall k sub f, nth_error subs k = Some (sub, f) -> exists b, nth_error bs k = Some b /\ same_but_atts sub b /\ length (fm_atts (sm_m b)) = length (fm_atts (sm_m s)) /\
    forall j a la, nth_error (fm_atts (sm_m s)) j = Some a -> nth_error (fm_atts (sm_m b)) j = Some la -> same_att a la /\ if (j <? length dn)%nat then is_copy s subs k a la else forall q, at_val la q = None.
Lemma ncomp1 : forall a, In a (fm_atts (sm_m s)) -> (if is_vec (at_type a) then at_ncomp a else 1) = at_ncomp a.
Proof using SA. intros a I. destruct (SA a I) as (_ & H2 & H3). destruct (at_type a) eqn:T; cbn [is_vec]; auto; [| |symmetry; auto]; pose proof (ca_comp _ _ _ (H2 ltac:(discriminate))) as C; rewrite T in C; auto. Qed.
Lemma start_done : exists bs, new_atts s (map fst subs) = Ok bs /\ part_done [] bs.
Proof using SA NA.
  unfold new_atts. rewrite (new_atts_ok s subs) by exact SA. eexists. split; [reflexivity|]. split; [rewrite !map_length; auto|].
  intros k sub f E. exists (set_atts sub (map blank (fm_atts (sm_m s)))). split.
  - rewrite map_map, nth_error_map, E. cbn [option_map fst]. rewrite (NA sub f) by (eapply nth_error_In; eauto). auto.
  - split; [split; [auto|]; split; [auto|]; eexists; reflexivity|]. cbn [set_atts with_m sm_m fm_atts]. split; [apply map_length|]. intros j a la Ej El. rewrite nth_error_map, Ej in El. cbn [option_map] in El. inversion El. subst la. split; [|destruct (j <? length (@nil attr))%nat eqn:Q; [apply Nat.ltb_lt in Q; cbn in Q; lia|auto]].
    unfold same_att, blank. cbn [at_name at_type at_ncomp at_ent]. split; [auto|]. split; [auto|]. split; [|auto]. apply ncomp1. eapply nth_error_In; eauto.
Qed.
Lemma first_of : forall j a l, nth_error (fm_atts (sm_m s)) j = Some a -> length l = length (fm_atts (sm_m s)) -> (forall i x la, nth_error (fm_atts (sm_m s)) i = Some x -> nth_error l i = Some la -> at_name la = at_name x) -> first_at at_name l (at_name a) j.
Proof using SA ND NA.
  intros j a l Ej Ll Hl. assert (Lj : (j < length (fm_atts (sm_m s)))%nat) by (apply nth_error_Some; congruence).
  assert (GET : forall i la, nth_error l i = Some la -> exists x, nth_error (fm_atts (sm_m s)) i = Some x /\ at_name la = at_name x).
  { intros i la E. destruct (nth_error (fm_atts (sm_m s)) i) as [x|] eqn:Ex. - exists x. split; [auto|exact (Hl i x la Ex E)]. - apply nth_error_None in Ex. assert (i < length l)%nat by (apply nth_error_Some; congruence). lia. }
  split; [|split].
  - destruct (nth_error l j) as [la|] eqn:E; [|apply nth_error_None in E; lia]. exists la. split; [auto|exact (Hl j a la Ej E)].
  - intros i la Li E Q. destruct (GET i la E) as (x & Ex & Nx). assert (i = j) by (apply (proj1 (NoDup_nth_error _) ND); [rewrite map_length; lia|rewrite !nth_error_map, Ex, Ej; cbn [option_map]; congruence]). lia.
  - intros i la Li E. destruct (GET i la E) as (x & Ex & Nx). rewrite Nx. exact (proj1 (SA x (nth_error_In _ _ Ex))).
Qed.
Lemma copies_done : forall bs, part_done [] bs -> exists bs', copy_atts s g2l (Z.of_nat n) bs = Ok bs' /\ part_done (fm_atts (sm_m s)) bs'.
Proof using LK SA ND NA.
  intros bs0 H0. unfold copy_atts. apply each; [|auto]. intros dn a rest bs EL (Lb & Hb).
  set (j := length dn). assert (Ej : nth_error (fm_atts (sm_m s)) j = Some a) by (rewrite EL; unfold j; rewrite nth_error_app2, Nat.sub_diag by lia; auto).
  assert (Ia : In a (fm_atts (sm_m s))) by (eapply nth_error_In; eauto). destruct (SA a Ia) as (Sn & Sc & Sp). unfold short_name at 1. replace (Z.of_nat (length (at_name a)) <=? 255) with true by lia. cbn [negb].
  assert (Ls : length (dn ++ [a]) = S j) by (rewrite app_length; cbn; unfold j; lia).
  destruct (is_pointer (at_type a)) eqn:Qp.
  - exists bs. split; [auto|]. split; [auto|]. intros k sub f E. destruct (Hb k sub f E) as (b & E1 & E2 & E3 & E4). exists b. split; [auto|]. split; [auto|]. split; [auto|]. intros i x la Ei El. destruct (E4 i x la Ei El) as [F1 F2]. split; [auto|]. rewrite Ls. fold j in F2.
    destruct (Nat.ltb_spec i (S j)) as [L|L]; destruct (Nat.ltb_spec i j) as [L'|L']; auto; [|lia]. assert (i = j) by lia. subst i. assert (x = a) by congruence. subst x. split; [auto|]. intros q v. rewrite F2. split; [discriminate|]. intros [F _]. destruct (at_type a); try discriminate Qp. destruct F; auto.
  - assert (NP : at_type a <> TPOINTER) by (intro Q; rewrite Q in Qp; discriminate Qp).
    assert (NS : forall b, In b bs -> exists k sub f, nth_error subs k = Some (sub, f) /\ nth_error bs k = Some b).
    { intros b I. apply In_nth_error in I as [k E]. assert (k < n)%nat by (rewrite <- Lb; apply nth_error_Some; congruence). destruct (nth_error subs k) as [[sub f]|] eqn:Es; [|apply nth_error_None in Es; lia]. eauto. }
    destruct (attr_ok s subs g2l a bs (repeat j (length bs)) LK (Sc NP) NP Lb) with (j := j) as (bs' & EC & L' & Hk); [|auto| |].
    + apply Forall2_repeat. intros b I. destruct (NS b I) as (k & sub & f & Es & Eb). destruct (Hb k sub f Es) as (b' & E1 & E2 & E3 & E4). rewrite E1 in Eb. inversion Eb. subst b'. split.
      * apply first_of; auto. intros i x la Ex El. apply (E4 i x la Ex El).
      * destruct (nth_error (fm_atts (sm_m b)) j) as [la|] eqn:El. { exists la. split; auto. destruct (E4 j a la Ej El) as [(_ & T1 & T2 & _) _]. auto. } apply nth_error_None in El. assert (j < length (fm_atts (sm_m s)))%nat by (apply nth_error_Some; congruence). lia.
    + apply first_of; auto. intros i x la Ex El. congruence.
    + rewrite EC. cbn [bind]. exists bs'. split; [auto|]. split; [auto|]. intros k sub f Es. destruct (Hb k sub f Es) as (b & E1 & (P1 & P2 & l0 & P3) & E3 & E4).
      assert (Er : nth_error (repeat j (length bs)) k = Some j). { assert (Hk' : (k < length bs)%nat) by (apply nth_error_Some; congruence). rewrite (nth_error_nth' _ j) by (rewrite repeat_length; auto). rewrite nth_repeat. auto. }
      destruct (Hk k b j E1 Er) as (b' & la & la' & B1 & B2 & B3 & (B4 & B5 & (l1 & B6) & B7 & B8) & C1 & C2 & C3 & C4 & C5 & C6). exists b'. split; [auto|]. split; [|split; [congruence|]].
      { split; [congruence|]. split; [congruence|]. exists l1. rewrite B6, P3. auto. }
      destruct (E4 j a la Ej B2) as [(A1 & A2 & A3 & A4) A5]. fold j in A5. rewrite (proj2 (Nat.ltb_ge j j)) in A5 by lia.
      intros i x ly Ei El. rewrite Ls. destruct (Nat.eq_dec i j) as [->|NE].
      * assert (x = a) by congruence. subst x. rewrite B3 in El. inversion El. subst ly. assert (SM : same_att a la') by (split; [congruence|]; split; [congruence|]; split; congruence). split; [auto|]. rewrite (proj2 (Nat.ltb_lt j (S j))) by lia. split; [auto|]. intros q v. split.
        -- intro Ev. split; [auto|]. apply (carried_inv s subs k a la la' q v); auto.
        -- intros (_ & d & g & Bd & su & I & C & Ev & Nv). eapply C5; eauto.
      * rewrite B8 in El by auto. destruct (E4 i x ly Ei El) as [G1 G2]. split; [auto|]. fold j in G2. destruct (Nat.ltb_spec i (S j)) as [L1|L1]; destruct (Nat.ltb_spec i j) as [L2|L2]; auto; lia.
Qed.
End All.

(** ** Sets *)
Lemma picked_snoc : forall subs k gs ls, picked subs k gs ls -> forall g l, copy_in subs k l g -> picked subs k (gs ++ [g]) (ls ++ [l]).
Proof. induction 1; intros g0 l0 C; cbn; [apply pk_copy; auto; constructor|apply pk_copy; auto|apply pk_none; auto]. Qed.
Lemma picked_skip : forall subs k gs ls, picked subs k gs ls -> forall g, (forall l, ~ copy_in subs k l g) -> picked subs k (gs ++ [g]) ls.
Proof. induction 1; intros g0 C; cbn; [apply pk_none; auto; constructor|apply pk_copy; auto|apply pk_none; auto]. Qed.
Lemma mapM_map : forall A B (f : A -> result B) (h : A -> B) l, (forall x, In x l -> f x = Ok (h x)) -> mapM f l = Ok (map h l).
Proof. induction l as [|x l IH]; intro H; cbn [mapM map]; auto. rewrite H by (cbn; auto). cbn [bind]. rewrite IH by (intros; apply H; cbn; auto). auto. Qed.
Lemma named : forall A (nm : A -> text) l name, (forall x, In x l -> (length (nm x) <= 255)%nat) -> (exists i, first_at nm l name i) \/ (forall x, In x l -> nm x <> name).
Proof.
  intros A nm l name H. induction l as [|x l IH]; [right; intros y []|]. destruct (text_eqb (nm x) name) eqn:T.
  - apply text_eqb_eq in T. left. exists O. split; [exists x; auto|]. split; [intros; lia|]. intros j y Hj Hy. assert (j = O) by lia. subst j. cbn in Hy. inversion Hy. subst. apply H. cbn; auto.
  - assert (Nx : nm x <> name) by (intro Q; rewrite Q, text_refl in T; discriminate T). destruct IH as [[i ((y & Y1 & Y2) & H2 & H3)]|N]; [intros; apply H; cbn; auto| |right; intros y [<-|I]; auto].
    left. exists (S i). split; [exists y; auto|]. split; intros [|j] z Hj Hz; cbn in Hz; try (inversion Hz; subst; auto; apply H; cbn; auto; fail); [exact (H2 j z ltac:(lia) Hz)|exact (H3 j z ltac:(lia) Hz)].
Qed.

Section Sets.
Variables (subs : list (smesh * (ptr -> ptr))) (g2l : ptr -> list (Z * ptr)) (x : mset) (bs : list smesh).
Hypothesis LK : linked g2l subs.
Hypothesis LB : length bs = length subs.
Hypothesis SN : (length (ms_name x) <= 255)%nat.
Hypothesis SB : forall b y, In b bs -> In y (sm_sets b) -> (length (ms_name y) <= 255)%nat.
Hypothesis CP : forall g, In g (ms_list x) -> exists k l, copy_in subs k l g.
Notation n := (length subs).
Definition home (b : smesh) : smesh * nat :=
  match by_name ms_name (sm_sets b) (ms_name x) with Ok (Some i) => (b, i) | _ => (set_sets b (sm_sets b ++ [mkSet (ms_name x) (ms_ent x) []]), length (sm_sets b)) end.
Lemma home_ok : forall b, In b bs -> local_set x b = Ok (home b) /\
  ((exists i y, first_at ms_name (sm_sets b) (ms_name x) i /\ nth_error (sm_sets b) i = Some y /\ home b = (b, i)) \/
   ((forall y, In y (sm_sets b) -> ms_name y <> ms_name x) /\ home b = (set_sets b (sm_sets b ++ [mkSet (ms_name x) (ms_ent x) []]), length (sm_sets b)))).
Proof using SB.
  intros b I. unfold local_set, home. destruct (named _ ms_name (sm_sets b) (ms_name x)) as [[i F]|N]. { intros y Hy. eapply SB; eauto. }
  - rewrite (by_name_ok _ _ _ _ _ F). split; [auto|]. left. pose proof F as ((y & Y1 & _) & _). exists i, y. auto.
  - rewrite by_name_none by (intros y Hy; split; [auto|eapply SB; eauto]). split; [auto|]. right. auto.
Qed.
Definition bk k := fst (home (nth k bs empty_smesh)).
Definition ik k := snd (home (nth k bs empty_smesh)).
Definition sput (b : smesh) (i : nat) (U : list ptr) : smesh :=
  match nth_error (sm_sets b) i with Some y => set_sets b (upd_nth (sm_sets b) i (mkSet (ms_name y) (ms_ent y) (ms_list y ++ U))) | None => b end.
Definition sst (U : nat -> list ptr) : list smesh := map (fun k => sput (bk k) (ik k) (U k)) (seq 0 n).
Lemma bk_at : forall k, (k < n)%nat -> nth_error bs k = Some (nth k bs empty_smesh) /\ exists y, nth_error (sm_sets (bk k)) (ik k) = Some y.
Proof using LB SB SN.
  intros k Hk. rewrite <- LB in Hk. pose proof (nth_error_nth' bs empty_smesh Hk) as E. split; [auto|]. unfold bk, ik. destruct (home_ok (nth k bs empty_smesh)) as [_ [(i & y & _ & Hy & ->)|[_ ->]]]; [eapply nth_error_In; eauto|eauto|].
  cbn [fst snd set_sets sm_sets]. rewrite nth_error_app2, Nat.sub_diag by lia. cbn. eauto.
Qed.
Lemma sst_at : forall U k, (k < n)%nat -> nth_error (sst U) k = Some (sput (bk k) (ik k) (U k)).
Proof using Type. intros U k Hk. unfold sst. rewrite nth_error_map. rewrite (nth_error_nth' _ O) by (rewrite seq_length; auto). cbn [option_map]. rewrite seq_nth by auto. auto. Qed.
Lemma sst_len : forall U, length (sst U) = n.
Proof using Type. intro U. unfold sst. rewrite map_length, seq_length. auto. Qed.
Lemma sst_upd : forall U k w, (k < n)%nat -> upd_nth (sst U) k (sput (bk k) (ik k) w) = sst (fun j => if (j =? k)%nat then w else U j).
Proof using All.
  intros U k w Hk. apply list_ext. intro j. rewrite nth_error_upd by (rewrite sst_len; auto). destruct (Nat.lt_ge_cases j n) as [L|L].
  - rewrite !sst_at by auto. destruct (Nat.eqb_spec j k); subst; auto.
  - destruct (Nat.eqb_spec j k); [lia|]. rewrite !(proj2 (nth_error_None _ _)); auto; rewrite sst_len; auto.
Qed.
Lemma sput_more : forall k U l, (k < n)%nat -> exists y, nth_error (sm_sets (sput (bk k) (ik k) U)) (ik k) = Some y /\
  set_sets (sput (bk k) (ik k) U) (upd_nth (sm_sets (sput (bk k) (ik k) U)) (ik k) (mkSet (ms_name y) (ms_ent y) (ms_list y ++ [l]))) = sput (bk k) (ik k) (U ++ [l]).
Proof using All.
  intros k U l Hk. destruct (bk_at k Hk) as [_ [y Hy]]. assert (L : (ik k < length (sm_sets (bk k)))%nat) by (apply nth_error_Some; congruence). exists (mkSet (ms_name y) (ms_ent y) (ms_list y ++ U)). unfold sput. rewrite Hy. cbn [set_sets sm_sets]. rewrite nth_error_upd by auto. rewrite Nat.eqb_refl. split; [auto|]. cbn [ms_name ms_ent ms_list]. rewrite upd_twice, <- app_assoc. auto.
Qed.
Lemma idx_at : forall k, (k < n)%nat -> nth_error (map snd (map home bs)) k = Some (ik k).
Proof using All. intros k Hk. destruct (bk_at k Hk) as [E _]. rewrite !nth_error_map, E. auto. Qed.
Lemma adds : forall L, NoDup (map fst L) -> (forall y, In y L -> 0 <= fst y < Z.of_nat n) -> forall U, exists U', foldM (add_copy (map snd (map home bs)) (Z.of_nat n)) (sst U) L = Ok (sst U') /\
  (forall k l, In (Z.of_nat k, l) L -> U' k = U k ++ [l]) /\ (forall k, (forall l, ~ In (Z.of_nat k, l) L) -> U' k = U k).
Proof using All.
  induction L as [|[k l] L IH]; intros NDL HL U; cbn [foldM]. { exists U. split; auto. split; [intros k l []|auto]. }
  inversion NDL as [|? ? Nk NDL']; subst. cbn [fst] in Nk.
  assert (Bk : 0 <= k < Z.of_nat n) by (apply (HL (k, l)); cbn; auto). unfold add_copy at 1. destruct ((0 <=? k) && (k <? Z.of_nat n)) eqn:Q; [|lia]. clear Q.
  set (j := Z.to_nat k). assert (Ek : k = Z.of_nat j) by (unfold j; lia). assert (Hj : (j < n)%nat) by lia. rewrite Ek.
  rewrite (rda_ok _ _ _ _ (sst_at U j Hj)). cbn [bind]. rewrite (rda_ok _ _ _ _ (idx_at j Hj)). cbn [bind]. destruct (sput_more j (U j) l Hj) as (y & Y1 & Y2). rewrite (rda_ok _ _ _ _ Y1). cbn [bind]. rewrite Y2, sst_upd by auto.
  destruct (IH NDL' ltac:(intros; apply HL; cbn; auto) (fun j0 => if (j0 =? j)%nat then U j ++ [l] else U j0)) as (U' & EU & H1 & H2). exists U'. split; [exact EU|].
  assert (NJ : forall l0, ~ In (Z.of_nat j, l0) L) by (intros l0 I; apply Nk; rewrite Ek; apply (in_map fst) in I; auto). split.
  - intros k' l' [I|I]. + inversion I as [[I1 I2]]. assert (k' = j) by lia. subst k' l'. rewrite H2 by auto. rewrite Nat.eqb_refl. auto. + rewrite (H1 k' l' I). destruct (Nat.eqb_spec k' j) as [->|]; auto. destruct (NJ _ I).
  - intros k' N. rewrite H2 by (intros l0 I; apply (N l0); right; auto). destruct (Nat.eqb_spec k' j) as [->|]; auto. destruct (N l). left. congruence.
Qed.
Lemma set_ok : exists bs', MESH_CopySet g2l (Z.of_nat n) bs x = Ok bs' /\ length bs' = n /\
  forall k b, nth_error bs k = Some b -> exists b' ls, nth_error bs' k = Some b' /\ picked subs k (ms_list x) ls /\ same_but_sets b b' /\
    ((exists i y, first_at ms_name (sm_sets b) (ms_name x) i /\ nth_error (sm_sets b) i = Some y /\ sm_sets b' = upd_nth (sm_sets b) i (mkSet (ms_name y) (ms_ent y) (ms_list y ++ ls))) \/
     ((forall y, In y (sm_sets b) -> ms_name y <> ms_name x) /\ sm_sets b' = sm_sets b ++ [mkSet (ms_name x) (ms_ent x) ls])).
Proof using All.
  unfold MESH_CopySet, short_name. replace (Z.of_nat (length (ms_name x)) <=? 255) with true by lia. cbn [negb]. rewrite (mapM_map _ _ _ home) by (intros b I; apply home_ok; auto). cbn [bind].
  assert (ST : map fst (map home bs) = sst (fun _ => [])).
  { apply list_ext. intro k. destruct (Nat.lt_ge_cases k n) as [L|L]. 2: { rewrite !(proj2 (nth_error_None _ _)); auto; rewrite ?sst_len, ?map_length; lia. } rewrite sst_at by auto. destruct (bk_at k L) as [E [y Hy]]. rewrite !nth_error_map, E. cbn [option_map]. f_equal. unfold sput. rewrite Hy. rewrite app_nil_r. replace (mkSet (ms_name y) (ms_ent y) (ms_list y)) with y by (destruct y; auto). rewrite upd_same by auto. unfold bk. destruct (fst (home (nth k bs empty_smesh))). auto. }
  rewrite ST.
  destruct (each _ _ (fun dn st => exists U, st = sst U /\ forall k, picked subs k dn (U k)) (fun subs0 g => match g2l g with [] => Undef | l => foldM (add_copy (map snd (map home bs)) (Z.of_nat n)) subs0 l end) (ms_list x)) with (st := sst (fun _ => [])) as (st' & E & U & -> & HU).
  - intros dn g rest st EL (U & -> & HU). destruct (CP g) as (k0 & l0 & C0). { rewrite EL. apply in_or_app. right. left. auto. }
    assert (CI : forall k q, In (Z.of_nat k, q) (g2l g) <-> copy_in subs k q g). { intros k q. rewrite (lk_list _ _ LK), Nat2Z.id. split; [tauto|]. intro; split; auto; lia. }
    assert (BD : forall x, In x (g2l g) -> 0 <= fst x < Z.of_nat n). { intros [k l] I. apply (lk_list _ _ LK) in I as [I0 (sb & f & d & E & _)]. assert (Z.to_nat k < n)%nat by (apply nth_error_Some; congruence). cbn [fst]. lia. }
    destruct (adds (g2l g) (lk_once _ _ LK g) BD U) as (U' & EU & H1 & H2). exists (sst U'). split. { apply CI in C0. destruct (g2l g); [destruct C0|auto]. }
    exists U'. split; [auto|]. intro k. destruct (in_dec Z.eq_dec (Z.of_nat k) (map fst (g2l g))) as [I|I].
    + apply in_map_iff in I as ([k' l] & Ek & I). cbn [fst] in Ek. subst k'. rewrite (H1 k l I). apply picked_snoc; auto. apply CI. auto.
    + assert (N : forall l, ~ In (Z.of_nat k, l) (g2l g)) by (intros l J; apply I; apply (in_map fst) in J; auto). rewrite (H2 k N). apply picked_skip; auto. intros l C. apply (N l). apply CI. auto.
  - exists (fun _ => []). split; [auto|]. intro. constructor.
  - exists (sst U). split; [auto|]. split; [apply sst_len|]. intros k b Eb. assert (Hk : (k < n)%nat) by (rewrite <- LB; apply nth_error_Some; congruence). destruct (bk_at k Hk) as [Eb' [y Hy]]. rewrite Eb in Eb'. inversion Eb'. assert (Ib : In b bs) by (eapply nth_error_In; eauto).
    exists (sput (bk k) (ik k) (U k)), (U k). split; [apply sst_at; auto|]. split; [apply HU|]. unfold sput. rewrite Hy. unfold bk, ik in *. rewrite <- H0 in *. destruct (home_ok b Ib) as [_ [(i & z & F & Hz & EH)|[N EH]]]; rewrite EH in *; cbn [fst snd] in *.
    + split; [split; auto|]. left. exists i, y. auto.
    + split; [split; auto|]. right. split; [auto|]. cbn [set_sets sm_sets] in *. rewrite nth_error_app2, Nat.sub_diag in Hy by lia. cbn in Hy. inversion Hy. subst y. cbn [ms_name ms_ent ms_list]. apply list_ext. intro j. rewrite nth_error_upd by (rewrite app_length; cbn; lia). destruct (Nat.eqb_spec j (length (sm_sets b))) as [->|NE]. * rewrite nth_error_app2, Nat.sub_diag by lia. auto. * destruct (Nat.lt_ge_cases j (length (sm_sets b))). -- rewrite !nth_error_app1 by lia. auto. -- rewrite !nth_error_app2 by lia. destruct (j - length (sm_sets b))%nat as [|w] eqn:Q; [lia|]. cbn. destruct w; auto.
Qed.
End Sets.

(** All sets, with different names. *)
Section AllSets.
Variables (s : smesh) (subs : list (smesh * (ptr -> ptr))) (g2l : ptr -> list (Z * ptr)).
Hypothesis LK : linked g2l subs.
Hypothesis SN : forall x, In x (sm_sets s) -> (length (ms_name x) <= 255)%nat.
Hypothesis CP : forall x g, In x (sm_sets s) -> In g (ms_list x) -> exists k l, copy_in subs k l g.
Hypothesis ND : NoDup (map ms_name (sm_sets s)).
Definition set_copy (k : nat) (x lx : mset) : Prop := ms_name lx = ms_name x /\ ms_ent lx = ms_ent x /\ picked subs k (ms_list x) (ms_list lx).
Lemma sets_ok : forall bs, length bs = length subs -> (forall b, In b bs -> sm_sets b = []) ->
  exists bs', copy_sets s g2l (Z.of_nat (length subs)) bs = Ok bs' /\ length bs' = length subs /\
    forall k b, nth_error bs k = Some b -> exists b', nth_error bs' k = Some b' /\ same_but_sets b b' /\ Forall2 (set_copy k) (sm_sets s) (sm_sets b').
Proof using All.
  intros bs LB E0. unfold copy_sets.
  destruct (each _ _ (fun dn bs' => length bs' = length subs /\ forall k b, nth_error bs k = Some b -> exists b', nth_error bs' k = Some b' /\ same_but_sets b b' /\ Forall2 (set_copy k) dn (sm_sets b')) (fun subs0 x => if negb (short_name (ms_name x)) then Undef else MESH_CopySet g2l (Z.of_nat (length subs)) subs0 x) (sm_sets s)) with (st := bs) as (bs' & E & H1 & H2).
  - intros dn x rest cs EL (Lc & Hc). assert (Ix : In x (sm_sets s)) by (rewrite EL; apply in_or_app; right; left; auto). pose proof (SN x Ix) as Sx. unfold short_name. replace (Z.of_nat (length (ms_name x)) <=? 255) with true by lia. cbn [negb].
    assert (NM : forall b b' k, nth_error bs k = Some b -> nth_error cs k = Some b' -> forall y, In y (sm_sets b') -> exists z, In z dn /\ ms_name y = ms_name z).
    { intros b b' k Eb Ec y Iy. destruct (Hc k b Eb) as (c & C1 & _ & C3). rewrite Ec in C1. inversion C1. subst c. clear -C3 Iy. induction C3 as [|z w l m [Q _] _ IH]; [destruct Iy|]. destruct Iy as [<-|I]; [exists z; cbn; auto|]. destruct (IH I) as (u & U1 & U2). exists u. cbn; auto. }
    assert (GB : forall b', In b' cs -> exists k b, nth_error bs k = Some b /\ nth_error cs k = Some b').
    { intros b' I. apply In_nth_error in I as [k Ek]. assert (k < length bs)%nat by (rewrite LB, <- Lc; apply nth_error_Some; congruence). destruct (nth_error bs k) as [b|] eqn:Eb; [|apply nth_error_None in Eb; lia]. eauto. }
    destruct (set_ok subs g2l x cs LK Lc Sx) as (cs' & EC & L' & HK).
    { intros b' y Ib Iy. destruct (GB b' Ib) as (k & b & Eb & Ec). destruct (NM b b' k Eb Ec y Iy) as (z & Iz & ->). apply SN. rewrite EL. apply in_or_app. auto. }
    { intros g Ig. eapply CP; eauto. }
    exists cs'. split; [auto|]. split; [auto|]. intros k b Eb. destruct (Hc k b Eb) as (c & C1 & (C2 & C2') & C3). destruct (HK k c C1) as (b' & ls & B1 & B2 & (B3 & B3') & B4). exists b'. split; [auto|]. split; [split; congruence|].
    destruct B4 as [(i & y & F & Hy & _)|[_ ->]].
    + exfalso. destruct F as ((y' & Y1 & Y2) & _). assert (Iy : In y' (sm_sets c)) by (eapply nth_error_In; eauto). destruct (NM b c k Eb C1 y' Iy) as (z & Iz & Nz). rewrite EL, map_app in ND. cbn [map] in ND. apply NoDup_remove_2 in ND. apply ND. apply in_or_app. left. rewrite <- Y2, Nz. apply in_map. auto.
    + apply Forall2_app; auto. constructor; [|constructor]. split; [auto|]. split; auto.
  - split; [auto|]. intros k b Eb. exists b. split; [auto|]. split; [split; auto|]. rewrite E0 by (eapply nth_error_In; eauto). constructor.
  - exists bs'. auto.
Qed.
End AllSets.
