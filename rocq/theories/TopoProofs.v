(** Bits, loops and boundary lists for the topology model. *)
From Coq Require Import ZArith List Lia Bool Arith ZifyBool ZifyNat.
From Verif Require Import Base BaseProofs ListSpec ParModel ParProps AttModel TopoModel TopoSpec.
Import ListNotations.
Open Scope Z_scope.

(** ** Loops *)
Lemma zrange_nil : forall a b, b <= a -> zrange a b = [].
Proof. intros. unfold zrange. replace (Z.to_nat (b - a)) with O by lia. reflexivity. Qed.
Lemma zrange_cons : forall a b, a < b -> zrange a b = a :: zrange (a + 1) b.
Proof.
  intros. unfold zrange. replace (Z.to_nat (b - a)) with (S (Z.to_nat (b - (a + 1)))) by lia.
  cbn [seq map]. f_equal. lia. rewrite <- seq_shift, map_map. apply map_ext. intros. lia.
Qed.
Lemma zrange_snoc : forall a b, a <= b -> zrange a (b + 1) = zrange a b ++ [b].
Proof.
  intros. unfold zrange. replace (Z.to_nat (b + 1 - a)) with (S (Z.to_nat (b - a))) by lia.
  rewrite seq_S, map_app. cbn [map]. f_equal. f_equal. lia.
Qed.
Lemma zrange_length : forall a b, length (zrange a b) = Z.to_nat (b - a).
Proof. intros. unfold zrange. rewrite map_length, seq_length. auto. Qed.
Lemma nth_zrange : forall a b i d, (i < Z.to_nat (b - a))%nat -> nth i (zrange a b) d = a + Z.of_nat i.
Proof.
  intros. unfold zrange. rewrite nth_indep with (d' := a + Z.of_nat 0%nat) by (rewrite map_length, seq_length; auto).
  rewrite (map_nth (fun i => a + Z.of_nat i)), seq_nth by auto. f_equal.
Qed.
Lemma zdown_nil : forall b a, b < a -> zdown b a = [].
Proof. intros. unfold zdown. rewrite zrange_nil by lia. auto. Qed.
Lemma zdown_cons : forall b a, a <= b -> zdown b a = b :: zdown (b - 1) a.
Proof.
  intros. unfold zdown. rewrite zrange_snoc by lia. rewrite rev_app_distr. cbn [rev app]. f_equal. f_equal. f_equal. lia.
Qed.

Lemma foldM_app : forall S A (g : S -> A -> result S) l1 l2 s,
  foldM g s (l1 ++ l2) = bind (foldM g s l1) (fun s' => foldM g s' l2).
Proof. intros S A g l1. induction l1 as [|x l1 IH]; intros; cbn; auto. destruct (g s x); cbn; auto. Qed.

Lemma foldM_up : forall S (P : Z -> S -> Prop) g a b s, a <= b -> P a s ->
  (forall k s, a <= k < b -> P k s -> exists s', g s k = Ok s' /\ P (k + 1) s') ->
  exists s', foldM g s (zrange a b) = Ok s' /\ P b s'.
Proof.
  intros S P g a b s Hab. remember (Z.to_nat (b - a)) as n. revert a s Hab Heqn. induction n; intros a s Hab Hn HP H.
  - assert (a = b) by lia. subst. rewrite zrange_nil by lia. cbn. eauto.
  - rewrite zrange_cons by lia. cbn [foldM]. destruct (H a s) as [s1 [E1 P1]]; auto. lia. rewrite E1. cbn [bind].
    apply IHn; auto; try lia. intros. apply H; auto. lia.
Qed.
Lemma foldM_down : forall S (P : Z -> S -> Prop) g b a s, a <= b + 1 -> P b s ->
  (forall k s, a <= k <= b -> P k s -> exists s', g s k = Ok s' /\ P (k - 1) s') ->
  exists s', foldM g s (zdown b a) = Ok s' /\ P (a - 1) s'.
Proof.
  intros S P g b a s Hab. remember (Z.to_nat (b + 1 - a)) as n. revert b s Hab Heqn. induction n; intros b s Hab Hn HP H.
  - assert (b = a - 1) by lia. subst. rewrite zdown_nil by lia. cbn. eauto.
  - rewrite zdown_cons by lia. cbn [foldM]. destruct (H b s) as [s1 [E1 P1]]; auto. lia. rewrite E1. cbn [bind].
    apply IHn; auto; try lia. intros. apply H; auto. lia.
Qed.
(** Over a list, with the entries done so far. *)
Lemma foldM_list : forall S A (P : list A -> S -> Prop) g l s, P [] s ->
  (forall pre x suf s, l = pre ++ x :: suf -> P pre s -> exists s', g s x = Ok s' /\ P (pre ++ [x]) s') ->
  exists s', foldM g s l = Ok s' /\ P l s'.
Proof.
  intros S A P g l s. assert (G : forall suf pre s, l = pre ++ suf -> P pre s ->
    (forall pre x suf s, l = pre ++ x :: suf -> P pre s -> exists s', g s x = Ok s' /\ P (pre ++ [x]) s') ->
    exists s', foldM g s suf = Ok s' /\ P l s').
  { induction suf as [|x suf IH]; intros pre s0 E HP H; cbn.
    - rewrite app_nil_r in E. subst. eauto.
    - destruct (H pre x suf s0) as [s1 [E1 P1]]; auto. rewrite E1. cbn [bind].
      apply IH with (pre := pre ++ [x]); auto. rewrite <- app_assoc. auto. }
  intros. apply (G l []); auto.
Qed.

(** ** Bits *)
Lemma bit64_ok : forall w k, 0 <= k < 64 -> bit64 w k = Ok (b2z (Z.testbit w k)).
Proof.
  intros. unfold bit64. replace ((0 <=? k) && (k <? 64)) with true by lia.
  f_equal. change 1 with (Z.ones 1) at 1. rewrite Z.land_ones by lia. change (2 ^ 1) with 2. rewrite <- Z.bit0_mod, Z.shiftr_spec by lia.
  change (0 + k) with k. unfold b2z. destruct (Z.testbit w k); auto.
Qed.
Lemma tb_pow : forall k m, 0 <= k -> 0 <= m -> Z.testbit (Z.shiftl 1 k) m = (m =? k).
Proof. intros. rewrite Z.shiftl_1_l. rewrite Z.pow2_bits_eqb by lia. lia. Qed.
Lemma tb_mod : forall x n m, 0 <= m < n -> Z.testbit (x mod 2 ^ n) m = Z.testbit x m.
Proof. intros. apply Z.mod_pow2_bits_low. lia. Qed.
Lemma tb_s32 : forall x m, 0 <= m < 32 -> Z.testbit (s32 x) m = Z.testbit x m.
Proof.
  intros. assert (E : s32 x mod 2 ^ 32 = x mod 2 ^ 32).
  { unfold s32. rewrite Zminus_mod_idemp_l. f_equal. lia. }
  rewrite <- (tb_mod (s32 x) 32 m), E, tb_mod by lia. auto.
Qed.
Lemma clr64_ok : forall w k, 0 <= k < 64 -> exists w', clr64 w k = Ok w' /\
  forall m, 0 <= m -> Z.testbit w' m = Z.testbit w m && negb (m =? k).
Proof.
  intros. unfold clr64. replace ((0 <=? k) && (k <? 64)) with true by lia. eexists. split; eauto.
  intros. rewrite Z.ldiff_spec, tb_pow by lia. auto.
Qed.
Lemma shl_bit : forall d k m, 0 <= k -> 0 <= m -> Z.testbit (Z.shiftl (b2z d) k) m = (m =? k) && d.
Proof.
  intros. destruct d; cbn [b2z].
  - rewrite tb_pow by lia. rewrite andb_true_r. auto.
  - rewrite Z.shiftl_0_l, Z.bits_0. rewrite andb_false_r. auto.
Qed.
Lemma ori64_ok : forall w d k, 0 <= k < 32 -> exists w', ori64 w (b2z d) k = Ok w' /\
  forall m, 0 <= m < 32 -> Z.testbit w' m = Z.testbit w m || ((m =? k) && d).
Proof.
  intros. unfold ori64, shl_int. replace ((0 <=? k) && (k <? 32)) with true by lia. cbn [bind]. eexists. split; eauto.
  intros. rewrite Z.lor_spec. f_equal. unfold u64. rewrite tb_mod, tb_s32, shl_bit by lia. auto.
Qed.
Lemma orl64_ok : forall w d k, 0 <= k < 64 -> exists w', orl64 w (b2z d) k = Ok w' /\
  forall m, 0 <= m < 64 -> Z.testbit w' m = Z.testbit w m || ((m =? k) && d).
Proof.
  intros. unfold orl64. replace ((0 <=? k) && (k <? 64)) with true by lia. eexists. split; eauto.
  intros. rewrite Z.lor_spec. f_equal. unfold u64. rewrite tb_mod, shl_bit by lia. auto.
Qed.

(** The word [w'] has the bits [g] in positions 0..31. *)
Definition bits (w : Z) (g : Z -> bool) : Prop := forall m, 0 <= m < 32 -> Z.testbit w m = g m.

(** One bit set to a given direction. *)
Lemma set64 : forall w g d k, 0 <= k < 32 -> bits w g -> exists w1 w',
  clr64 w k = Ok w1 /\ ori64 w1 (b2z d) k = Ok w' /\ bits w' (fun m => if m =? k then d else g m).
Proof.
  intros w g d k Hk Hg. destruct (clr64_ok w k) as [w1 [E1 B1]]; [lia|]. destruct (ori64_ok w1 d k) as [w' [E2 B2]]; [lia|].
  exists w1, w'. repeat split; auto. intros m Hm. rewrite B2, B1, Hg by lia. destruct (m =? k), d, (g m); auto.
Qed.
(** Bit k taken from bit k+1 (int and long long versions), bit k+1 from bit k. *)
Lemma mvl64 : forall w g k, 0 <= k < 31 -> bits w g -> exists w1 w',
  clr64 w k = Ok w1 /\ bit64 w1 (k + 1) = Ok (b2z (g (k + 1))) /\ orl64 w1 (b2z (g (k + 1))) k = Ok w' /\
  bits w' (fun m => if m =? k then g (k + 1) else g m).
Proof.
  intros w g k Hk Hg. destruct (clr64_ok w k) as [w1 [E1 B1]]; [lia|]. destruct (orl64_ok w1 (g (k + 1)) k) as [w' [E2 B2]]; [lia|].
  exists w1, w'. repeat split; auto.
  - rewrite bit64_ok by lia. rewrite B1, Hg by lia. replace (k + 1 =? k) with false by lia. rewrite andb_true_r. auto.
  - intros m Hm. rewrite B2, B1, Hg by lia. destruct (m =? k), (g (k + 1)), (g m); auto.
Qed.
Lemma mvd64 : forall w g k, 0 <= k < 31 -> bits w g -> exists w1 w',
  clr64 w k = Ok w1 /\ bit64 w1 (k + 1) = Ok (b2z (g (k + 1))) /\ ori64 w1 (b2z (g (k + 1))) k = Ok w' /\
  bits w' (fun m => if m =? k then g (k + 1) else g m).
Proof.
  intros w g k Hk Hg. destruct (clr64_ok w k) as [w1 [E1 B1]]; [lia|]. destruct (ori64_ok w1 (g (k + 1)) k) as [w' [E2 B2]]; [lia|].
  exists w1, w'. repeat split; auto.
  - rewrite bit64_ok by lia. rewrite B1, Hg by lia. replace (k + 1 =? k) with false by lia. rewrite andb_true_r. auto.
  - intros m Hm. rewrite B2, B1, Hg by lia. destruct (m =? k), (g (k + 1)), (g m); auto.
Qed.
Lemma mvu64 : forall w g k, 0 <= k < 31 -> bits w g -> exists w1 w',
  clr64 w (k + 1) = Ok w1 /\ bit64 w1 k = Ok (b2z (g k)) /\ ori64 w1 (b2z (g k)) (k + 1) = Ok w' /\
  bits w' (fun m => if m =? k + 1 then g k else g m).
Proof.
  intros w g k Hk Hg. destruct (clr64_ok w (k + 1)) as [w1 [E1 B1]]; [lia|]. destruct (ori64_ok w1 (g k) (k + 1)) as [w' [E2 B2]]; [lia|].
  exists w1, w'. repeat split; auto.
  - rewrite bit64_ok by lia. rewrite B1, Hg by lia. replace (k =? k + 1) with false by lia. rewrite andb_true_r. auto.
  - intros m Hm. rewrite B2, B1, Hg by lia. destruct (m =? k + 1), (g k), (g m); auto.
Qed.

Definition sdown (from ne : Z) (g : Z -> bool) : Z -> bool := fun m => if (from <=? m) && (m <? ne - 1) then g (m + 1) else g m.
Definition sup (from ne : Z) (g : Z -> bool) : Z -> bool := fun m => if (from <? m) && (m <=? ne) then g (m - 1) else g m.

Lemma shift_down_ok : forall w g from ne, bits w g -> 0 <= from -> ne <= 32 ->
  exists w', shift_down w from ne = Ok w' /\ bits w' (sdown from ne g).
Proof.
  intros w g from ne Hg Hf Hn. unfold shift_down. destruct (Z_le_gt_dec from (ne - 1)).
  - destruct (foldM_up Z (fun k w => bits w (sdown from (k + 1) g))
      (fun w k => w <- clr64 w k ;; d <- bit64 w (k + 1) ;; orl64 w d k) from (ne - 1) w) as [w' [E P]]; auto.
    + intros m Hm. rewrite Hg by lia. unfold sdown. destruct (Z.leb_spec from m), (Z.ltb_spec m (from + 1 - 1)); auto; lia.
    + intros k w0 Hk H0. destruct (mvl64 w0 _ k ltac:(lia) H0) as (w1 & w2 & E1 & E2 & E3 & B). rewrite E1. cbn [bind]. rewrite E2. cbn [bind].
      exists w2. split; auto. intros m Hm. rewrite B by lia. unfold sdown.
      destruct (Z.eqb_spec m k).
      * subst m. destruct (Z.leb_spec from (k + 1)); [|lia]. destruct (Z.ltb_spec (k + 1) (k + 1 - 1)); [lia|].
        destruct (Z.leb_spec from k); [|lia]. destruct (Z.ltb_spec k (k + 1 + 1 - 1)); [auto|lia].
      * destruct (Z.leb_spec from m), (Z.ltb_spec m (k + 1 - 1)), (Z.ltb_spec m (k + 1 + 1 - 1)); auto; lia.
    + exists w'. split; auto. replace (ne - 1 + 1) with ne in P by lia. auto.
  - rewrite zrange_nil by lia. exists w. split; auto. intros m Hm. rewrite Hg by lia. unfold sdown.
    destruct (Z.leb_spec from m), (Z.ltb_spec m (ne - 1)); auto; lia.
Qed.
(** The same loop with an int direction: MF_Replace_Edges_i. *)
Lemma shift_downi_ok : forall w g from ne, bits w g -> 0 <= from -> ne <= 32 ->
  exists w', foldM (fun w k => w <- clr64 w k ;; b <- bit64 w (k + 1) ;; ori64 w b k) w (zrange from (ne - 1)) = Ok w' /\ bits w' (sdown from ne g).
Proof.
  intros w g from ne Hg Hf Hn. destruct (Z_le_gt_dec from (ne - 1)).
  - destruct (foldM_up Z (fun k w => bits w (sdown from (k + 1) g))
      (fun w k => w <- clr64 w k ;; d <- bit64 w (k + 1) ;; ori64 w d k) from (ne - 1) w) as [w' [E P]]; auto.
    + intros m Hm. rewrite Hg by lia. unfold sdown. destruct (Z.leb_spec from m), (Z.ltb_spec m (from + 1 - 1)); auto; lia.
    + intros k w0 Hk H0. destruct (mvd64 w0 _ k ltac:(lia) H0) as (w1 & w2 & E1 & E2 & E3 & B). rewrite E1. cbn [bind]. rewrite E2. cbn [bind].
      exists w2. split; auto. intros m Hm. rewrite B by lia. unfold sdown.
      destruct (Z.eqb_spec m k).
      * subst m. destruct (Z.leb_spec from (k + 1)); [|lia]. destruct (Z.ltb_spec (k + 1) (k + 1 - 1)); [lia|].
        destruct (Z.leb_spec from k); [|lia]. destruct (Z.ltb_spec k (k + 1 + 1 - 1)); [auto|lia].
      * destruct (Z.leb_spec from m), (Z.ltb_spec m (k + 1 - 1)), (Z.ltb_spec m (k + 1 + 1 - 1)); auto; lia.
    + exists w'. split; auto. replace (ne - 1 + 1) with ne in P by lia. auto.
  - rewrite zrange_nil by lia. exists w. split; auto. intros m Hm. rewrite Hg by lia. unfold sdown.
    destruct (Z.leb_spec from m), (Z.ltb_spec m (ne - 1)); auto; lia.
Qed.
Lemma shift_up_ok : forall w g p ne, bits w g -> 0 <= p -> p <= ne -> ne < 32 ->
  exists w', foldM (fun w k => w <- clr64 w (k + 1) ;; b <- bit64 w k ;; ori64 w b (k + 1)) w (zdown (ne - 1) p) = Ok w' /\ bits w' (sup p ne g).
Proof.
  intros w g p ne Hg Hp Hpn Hn.
  destruct (foldM_down Z (fun k w => bits w (sup (k + 1) ne g))
      (fun w k => w <- clr64 w (k + 1) ;; b <- bit64 w k ;; ori64 w b (k + 1)) (ne - 1) p w) as [w' [E P]]; auto.
  - lia.
  - intros m Hm. rewrite Hg by lia. unfold sup. destruct (Z.ltb_spec (ne - 1 + 1) m), (Z.leb_spec m ne); auto; lia.
  - intros k w0 Hk H0. destruct (mvu64 w0 _ k ltac:(lia) H0) as (w1 & w2 & E1 & E2 & E3 & B). rewrite E1. cbn [bind]. rewrite E2. cbn [bind].
    exists w2. split; auto. intros m Hm. rewrite B by lia. unfold sup.
    destruct (Z.eqb_spec m (k + 1)).
    + subst m. destruct (Z.ltb_spec (k + 1) k); [lia|]. destruct (Z.ltb_spec (k - 1 + 1) (k + 1)); [|lia].
      destruct (Z.leb_spec (k + 1) ne); [|lia]. replace (k + 1 - 1) with k by lia. auto.
    + destruct (Z.ltb_spec (k + 1) m), (Z.ltb_spec (k - 1 + 1) m), (Z.leb_spec m ne); auto; lia.
  - exists w'. split; auto. replace (p - 1 + 1) with p in P by lia. auto.
Qed.
