(** The comparison of coordinates on points whose coordinates are close together or
    well apart (C10, C30).  Uses Flocq for the rounding of the differences. *)
From Coq Require Import ZArith List Lia Bool Reals Lra Floats.SpecFloat.
From Flocq Require Import Core.Core Core.Digits IEEE754.BinarySingleNaN IEEE754.PrimFloat.
From Verif Require Import Base CompareModel CompareProps GidModel.
Import ListNotations.
Open Scope Z_scope.

Notation b64 := (binary_float 53 1024).

Lemma sub_flocq : forall x y : b64, f64sub (B2SF x) (B2SF y) = B2SF (@Bminus 53 1024 Hprec Hmax mode_NE x y).
Proof.
  intros x y. destruct x as [sx|sx| |sx mx ex Bx]; destruct y as [sy|sy| |sy my ey By]; [now (trivial || simpl; case Bool.eqb)..|].
  unfold f64sub. simpl. unfold Zminus. rewrite <- cond_Zopp_negb. apply binary_normalize_equiv.
Qed.

Definition tolB : b64 := @B754_finite 53 1024 false 4951760157141521 (-92) eq_refl.
Lemma tolB_ok : B2SF tolB = tol12.
Proof. reflexivity. Qed.
Lemma tol_pos : (0 < B2R tolB)%R.
Proof. unfold B2R, tolB. apply F2R_gt_0. cbn. lia. Qed.
Lemma two_tol : generic_format radix2 (fexp 53 1024) (2 * B2R tolB)%R.
Proof.
  replace (2 * B2R tolB)%R with (B2R (@B754_finite 53 1024 false 4951760157141521 (-91) eq_refl)). apply generic_format_B2R.
  unfold tolB, B2R, F2R, Fnum, Fexp. cbn [cond_Zopp]. change (-91) with (-92 + 1). rewrite bpow_plus. change (bpow radix2 1) with 2%R. lra.
Qed.
Lemma tol_small : (2 * B2R tolB < bpow radix2 1024)%R.
Proof.
  unfold tolB, B2R, F2R, Fnum, Fexp. cbn [cond_Zopp]. apply Rlt_trans with (bpow radix2 1 * (bpow radix2 53 * bpow radix2 (-92)))%R.
  - change (bpow radix2 1) with 2%R. apply Rmult_lt_compat_l. lra. apply Rmult_lt_compat_r. apply bpow_gt_0. change (bpow radix2 53) with (IZR 9007199254740992). apply IZR_lt. lia.
  - rewrite <- !bpow_plus. apply bpow_lt. lia.
Qed.
Lemma sign_neg : forall x : b64, is_finite x = true -> Bsign x = true -> (B2R x <= 0)%R.
Proof. intros [s|s| |s m e B] F E; cbn in E |- *; try lra; try discriminate. subst s. apply F2R_le_0. cbn. lia. Qed.
Lemma sign_pos : forall x : b64, is_finite x = true -> Bsign x = false -> (0 <= B2R x)%R.
Proof. intros [s|s| |s m e B] F E; cbn in E |- *; try lra; try discriminate. subst s. apply F2R_ge_0. cbn. lia. Qed.

Lemma sub_cmp : forall x y : b64, is_finite x = true -> is_finite y = true ->
  ((B2R x - B2R y <= B2R tolB)%R -> SFltb tol12 (f64sub (B2SF x) (B2SF y)) = false) /\
  ((2 * B2R tolB <= B2R x - B2R y)%R -> SFltb tol12 (f64sub (B2SF x) (B2SF y)) = true).
Proof.
  intros x y Fx Fy. rewrite sub_flocq, <- tolB_ok. pose proof (@Bminus_correct 53 1024 Hprec Hmax mode_NE x y Fx Fy) as H. change (SFltb (B2SF tolB) ?z) with (SFltb (B2SF tolB) z).
  pose proof tol_pos as TP. pose proof two_tol as TT. pose proof tol_small as TS.
  set (r := round radix2 (fexp 53 1024) (round_mode mode_NE) (B2R x - B2R y)) in *. set (z := Bminus mode_NE x y) in *.
  assert (RT : generic_format radix2 (fexp 53 1024) (B2R tolB)) by apply generic_format_B2R.
  assert (Lo : (B2R x - B2R y <= B2R tolB)%R -> (r <= B2R tolB)%R). { intros L. unfold r. apply round_le_generic; auto with typeclass_instances. apply fexp_correct. reflexivity. }
  assert (Hi : (2 * B2R tolB <= B2R x - B2R y)%R -> (2 * B2R tolB <= r)%R). { intros L. unfold r. apply round_ge_generic; auto with typeclass_instances. apply fexp_correct. reflexivity. }
  destruct (Rlt_bool_spec (Rabs r) (bpow radix2 1024)) as [Hr|Hr].
  - destruct H as (H1 & H2 & _). change (SFltb (B2SF tolB) (B2SF z)) with (Bltb tolB z). rewrite Bltb_correct by auto. rewrite H1. split; intros L.
    + apply Rlt_bool_false. apply Lo. auto.
    + apply Rlt_bool_true. specialize (Hi L). lra.
  - destruct H as (H1 & H2). rewrite H1. destruct (Bsign x) eqn:Sx.
    + assert (Bsign y = false) by (destruct (Bsign y); auto). pose proof (sign_neg x Fx Sx). pose proof (sign_pos y Fy H). split; intros L. reflexivity. lra.
    + assert (Bsign y = true) by (destruct (Bsign y); auto). pose proof (sign_pos x Fx Sx). pose proof (sign_neg y Fy H). split; intros L; [|reflexivity]. exfalso. specialize (Lo L). assert (R0 : (0 <= r)%R). { unfold r. apply round_ge_generic; auto with typeclass_instances. apply fexp_correct. reflexivity. apply generic_format_0. lra. } rewrite Rabs_pos_eq in Hr by auto. lra.
Qed.

(** ** Bit patterns *)
(** The value of a 64-bit pattern (IEEE 754 binary64) times 2^1074. *)
Definition value64 (b : Z) : Z :=
  let ex := (b / 2 ^ 52) mod 2 ^ 11 in
  let m := b mod 2 ^ 52 in
  (if b / 2 ^ 63 =? 0 then 1 else -1) * (if ex =? 0 then m else (m + 2 ^ 52) * 2 ^ (ex - 1)).
(** Neither an infinity nor a NaN. *)
Definition finite64 (b : Z) : Prop := (b / 2 ^ 52) mod 2 ^ 11 <> 2 ^ 11 - 1.

Lemma digits_le : forall m, 0 < Z.pos m < 2 ^ 52 -> Z.pos (digits2_pos m) <= 52.
Proof. intros m H. rewrite Zpos_digits2_pos. apply Zdigits_le_Zpower. change (Zpower radix2 52) with (2 ^ 52). lia. Qed.
Lemma digits_eq : forall m, 2 ^ 52 <= Z.pos m < 2 ^ 53 -> Z.pos (digits2_pos m) = 53.
Proof. intros m H. rewrite Zpos_digits2_pos. apply Zdigits_unique. change (Zpower radix2 (53 - 1)) with (2 ^ 52). change (Zpower radix2 53) with (2 ^ 53). lia. Qed.

Lemma f64_valid : forall b, finite64 b -> exists x : b64, B2SF x = f64_of b /\ is_finite x = true /\ (B2R x * bpow radix2 1074)%R = IZR (value64 b).
Proof.
  intros b Hb. unfold finite64 in Hb. unfold f64_of, value64. set (ex := (b / 2 ^ 52) mod 2 ^ 11) in *. set (m := b mod 2 ^ 52).
  assert (Rex : 0 <= ex < 2 ^ 11) by (apply Z.mod_pos_bound; lia). assert (Rm : 0 <= m < 2 ^ 52) by (apply Z.mod_pos_bound; lia).
  replace (ex =? 2 ^ 11 - 1) with false by lia. set (sg := negb (b / 2 ^ 63 =? 0)). replace (if b / 2 ^ 63 =? 0 then 1 else -1) with (if sg then -1 else 1) by (unfold sg; destruct (b / 2 ^ 63 =? 0); auto).
  destruct (Z.eqb_spec ex 0) as [E0|E0].
  - destruct m as [|pm|pm] eqn:Em; [| |lia].
    + exists (B754_zero sg). split; auto. split; auto. cbn. replace ((if sg then -1 else 1) * 0) with 0 by lia. lra.
    + assert (B : bounded 53 1024 pm (-1074) = true). { unfold bounded, canonical_mantissa. pose proof (digits_le pm ltac:(lia)) as L. unfold fexp, emin. apply andb_true_iff. split; [apply Zeq_is_eq_bool; lia|apply Zle_imp_le_bool; lia]. }
      exists (B754_finite sg pm (-1074) B). split; auto. split; auto. unfold B2R, F2R, Fnum, Fexp. rewrite Rmult_assoc, <- bpow_plus. change (bpow radix2 (-1074 + 1074)) with 1%R. rewrite Rmult_1_r. f_equal. destruct sg; cbn [cond_Zopp]; lia.
  - assert (exists pm, m + 2 ^ 52 = Z.pos pm) as (pm & Ep). { destruct (m + 2 ^ 52) eqn:E; try lia. eauto. } rewrite Ep.
    assert (B : bounded 53 1024 pm (ex - 1075) = true). { unfold bounded, canonical_mantissa. pose proof (digits_eq pm ltac:(lia)) as L. unfold fexp, emin. apply andb_true_iff. split; [apply Zeq_is_eq_bool; lia|apply Zle_imp_le_bool; lia]. }
    exists (B754_finite sg pm (ex - 1075) B). split; auto. split; auto. unfold B2R, F2R, Fnum, Fexp. rewrite Rmult_assoc, <- bpow_plus. replace (ex - 1075 + 1074) with (ex - 1) by lia. rewrite <- IZR_Zpower by lia. rewrite <- mult_IZR. f_equal. change (Zpower radix2 (ex - 1)) with (2 ^ (ex - 1)). destruct sg; cbn [cond_Zopp]; lia.
Qed.

(** The tolerance (compare_funcs.c 33) times 2^1074. *)
Definition tolz : Z := 4951760157141521 * 2 ^ (1074 - 92).
Lemma tolz_ok : (B2R tolB * bpow radix2 1074)%R = IZR tolz.
Proof.
  unfold tolB, B2R, F2R, Fnum, Fexp, tolz. cbn [cond_Zopp]. rewrite Rmult_assoc, <- bpow_plus. rewrite mult_IZR. f_equal.
Qed.
Lemma f64_cmp : forall a b, finite64 a -> finite64 b ->
  (value64 a - value64 b <= tolz -> SFltb tol12 (f64sub (f64_of a) (f64_of b)) = false) /\
  (2 * tolz <= value64 a - value64 b -> SFltb tol12 (f64sub (f64_of a) (f64_of b)) = true).
Proof.
  intros a b Ha Hb. destruct (f64_valid a Ha) as (x & Ex & Fx & Vx). destruct (f64_valid b Hb) as (y & Ey & Fy & Vy). rewrite <- Ex, <- Ey. destruct (sub_cmp x y Fx Fy) as (C1 & C2). pose proof tolz_ok as T. assert (P : (0 < bpow radix2 1074)%R) by apply bpow_gt_0. split; intros L.
  - apply C1. apply Rmult_le_reg_r with (bpow radix2 1074); auto. rewrite T, Rmult_minus_distr_r, Vx, Vy, <- minus_IZR. apply IZR_le; auto.
  - apply C2. apply Rmult_le_reg_r with (bpow radix2 1074); auto. rewrite Rmult_assoc, T, Rmult_minus_distr_r, Vx, Vy, <- minus_IZR, <- mult_IZR. apply IZR_le; auto.
Qed.

(** ** Points *)
Definition ax (k : list Z) (i : nat) : Z := value64 (nth i k 0).
Definition real_point (k : list Z) : Prop := length k = 3%nat /\ Forall finite64 k.
Definition same_point (k k' : list Z) : Prop := forall i, (i < 3)%nat -> Z.abs (ax k i - ax k' i) <= tolz.
(** Along each axis two points are at most the tolerance apart or more than twice. *)
Definition separated (K : list Z -> Prop) : Prop := forall k k', K k -> K k' -> forall i, (i < 3)%nat -> Z.abs (ax k i - ax k' i) <= tolz \/ 2 * tolz < Z.abs (ax k i - ax k' i).

Definition axcmp (x y : Z) : Z := if x - y <=? tolz then (if y - x <=? tolz then 0 else -1) else 1.
Definition ptcmp (k k' : list Z) : Z :=
  if axcmp (ax k 0) (ax k' 0) =? 0 then (if axcmp (ax k 1) (ax k' 1) =? 0 then axcmp (ax k 2) (ax k' 2) else axcmp (ax k 1) (ax k' 1)) else axcmp (ax k 0) (ax k' 0).
Lemma real_nth : forall k i, real_point k -> (i < 3)%nat -> finite64 (nth i k 0).
Proof. intros k i (L & F) Hi. rewrite Forall_forall in F. apply F. apply nth_In. lia. Qed.
Lemma axis_cmp : forall a b r, finite64 a -> finite64 b -> (Z.abs (value64 a - value64 b) <= tolz \/ 2 * tolz < Z.abs (value64 a - value64 b)) ->
  (if SFltb tol12 (f64sub (f64_of a) (f64_of b)) then 1 else if SFltb tol12 (f64sub (f64_of b) (f64_of a)) then -1 else r) = if axcmp (value64 a) (value64 b) =? 0 then r else axcmp (value64 a) (value64 b).
Proof.
  intros a b r Fa Fb H. destruct (f64_cmp a b Fa Fb) as (A1 & A2). destruct (f64_cmp b a Fb Fa) as (B1 & B2). revert A1 A2 B1 B2 H. unfold axcmp. assert (T : 0 < tolz) by reflexivity. revert T. generalize tolz as t. generalize (value64 a) as x. generalize (value64 b) as y. intros y x t T A1 A2 B1 B2 H.
  destruct (Z.leb_spec (x - y) t); destruct (Z.leb_spec (y - x) t).
  - rewrite A1, B1 by lia. auto.
  - rewrite A1, B2 by lia. auto.
  - rewrite A2 by lia. auto.
  - lia.
Qed.
Lemma coor_cmp : forall (K : list Z -> Prop) k k', (forall k, K k -> real_point k) -> separated K -> K k -> K k' -> compareCoorDouble (xyz_of k) (xyz_of k') = ptcmp k k'.
Proof.
  intros K k k' R Sp Hk Hk'. unfold compareCoorDouble, xyz_of. cbn [coor_loop]. pose proof (fun i Hi => real_nth k i (R k Hk) Hi) as F. pose proof (fun i Hi => real_nth k' i (R k' Hk') Hi) as F'.
  rewrite !axis_cmp by (try apply F; try apply F'; try lia; apply (Sp k k' Hk Hk'); lia). unfold ptcmp, ax. destruct (Z.eqb_spec (axcmp (value64 (nth 2 k 0)) (value64 (nth 2 k' 0))) 0) as [E|E]; auto. rewrite E. auto.
Qed.
Lemma axcmp_anti : forall x y, axcmp x y = - axcmp y x.
Proof. intros x y. unfold axcmp. assert (T : 0 < tolz) by reflexivity. revert T. generalize tolz as t. intros t T. destruct (Z.leb_spec (x - y) t); destruct (Z.leb_spec (y - x) t); lia. Qed.
Definition apart_ok (x y : Z) : Prop := Z.abs (x - y) <= tolz \/ 2 * tolz < Z.abs (x - y).
Lemma axcmp_trans : forall x y z, apart_ok x y -> apart_ok y z -> apart_ok x z ->
  (axcmp x y = 0 -> axcmp x z = axcmp y z) /\ (axcmp y z = 0 -> axcmp x z = axcmp x y) /\ (axcmp x y = -1 -> axcmp y z = -1 -> axcmp x z = -1) /\ (axcmp x y = 0 \/ axcmp x y = -1 \/ axcmp x y = 1) /\ (axcmp y z = 0 \/ axcmp y z = -1 \/ axcmp y z = 1).
Proof.
  intros x y z. unfold axcmp, apart_ok. assert (T : 0 < tolz) by reflexivity. revert T. generalize tolz as t. intros t T H H0 H1.
  destruct (Z.leb_spec (x - y) t); destruct (Z.leb_spec (y - x) t); try lia; destruct (Z.leb_spec (y - z) t); destruct (Z.leb_spec (z - y) t); try lia; destruct (Z.leb_spec (x - z) t); destruct (Z.leb_spec (z - x) t); try lia.
Qed.
Lemma axcmp_zero : forall x y, axcmp x y = 0 <-> Z.abs (x - y) <= tolz.
Proof. intros x y. unfold axcmp. assert (T : 0 < tolz) by reflexivity. revert T. generalize tolz as t. intros t T. destruct (Z.leb_spec (x - y) t); destruct (Z.leb_spec (y - x) t); lia. Qed.
Lemma coor_preorder : forall K : list Z -> Prop, (forall k, K k -> real_point k) -> separated K -> preorder3 K (fun a b => compareCoorDouble (xyz_of a) (xyz_of b)) same_point.
Proof.
  intros K R Sp. unfold preorder3. split; [|split].
  - intros a b Ha Hb. rewrite !(coor_cmp K) by auto. unfold ptcmp. rewrite (axcmp_anti (ax b 0)), (axcmp_anti (ax b 1)), (axcmp_anti (ax b 2)). generalize (axcmp (ax a 0) (ax b 0)) as u, (axcmp (ax a 1) (ax b 1)) as v, (axcmp (ax a 2) (ax b 2)) as w. intros u v w. destruct (Z.eqb_spec u 0); destruct (Z.eqb_spec v 0); destruct (Z.eqb_spec (- u) 0); destruct (Z.eqb_spec (- v) 0); lia.
  - intros a b c Ha Hb Hc. rewrite !(coor_cmp K) by auto.
    pose proof (Sp a b Ha Hb 0%nat ltac:(lia)) as X0. pose proof (Sp b c Hb Hc 0%nat ltac:(lia)) as Y0. pose proof (Sp a c Ha Hc 0%nat ltac:(lia)) as W0.
    pose proof (Sp a b Ha Hb 1%nat ltac:(lia)) as X1. pose proof (Sp b c Hb Hc 1%nat ltac:(lia)) as Y1. pose proof (Sp a c Ha Hc 1%nat ltac:(lia)) as W1.
    pose proof (Sp a b Ha Hb 2%nat ltac:(lia)) as X2. pose proof (Sp b c Hb Hc 2%nat ltac:(lia)) as Y2. pose proof (Sp a c Ha Hc 2%nat ltac:(lia)) as W2.
    destruct (axcmp_trans _ _ _ X0 Y0 W0) as (P1 & P2 & P3 & P4 & P5). destruct (axcmp_trans _ _ _ X1 Y1 W1) as (Q1 & Q2 & Q3 & Q4 & Q5). destruct (axcmp_trans _ _ _ X2 Y2 W2) as (R1 & R2 & R3 & R4 & R5).
    clear X0 Y0 W0 X1 Y1 W1 X2 Y2 W2 R Sp Ha Hb Hc K. unfold ptcmp. revert P1 P2 P3 P4 P5 Q1 Q2 Q3 Q4 Q5 R1 R2 R3 R4 R5. generalize (axcmp (ax a 0) (ax b 0)) (axcmp (ax b 0) (ax c 0)) (axcmp (ax a 0) (ax c 0)) (axcmp (ax a 1) (ax b 1)) (axcmp (ax b 1) (ax c 1)) (axcmp (ax a 1) (ax c 1)) (axcmp (ax a 2) (ax b 2)) (axcmp (ax b 2) (ax c 2)) (axcmp (ax a 2) (ax c 2)). intros x0 y0 z0 x1 y1 z1 x2 y2 z2 P1 P2 P3 P4 P5 Q1 Q2 Q3 Q4 Q5 R1 R2 R3 R4 R5.
    destruct P4 as [E|[E|E]]; destruct P5 as [F|[F|F]]; subst x0 y0; cbn [Z.eqb]; intros HA HB; try (exfalso; clear - HA HB; lia).
    + rewrite (P1 eq_refl). cbn [Z.eqb]. destruct Q4 as [G|[G|G]]; destruct Q5 as [H|[H|H]]; subst x1 y1; cbn [Z.eqb] in HA, HB; try (exfalso; clear - HA HB; lia).
      * rewrite (Q1 eq_refl). cbn [Z.eqb]. clear - HA HB R1 R2 R3 R4 R5. destruct R4 as [I|[I|I]]; destruct R5 as [J|[J|J]]; lia.
      * rewrite (Q1 eq_refl). cbn [Z.eqb]. lia.
      * rewrite (Q2 eq_refl). cbn [Z.eqb]. lia.
      * rewrite (Q3 eq_refl eq_refl). cbn [Z.eqb]. lia.
    + rewrite (P1 eq_refl). cbn [Z.eqb]. lia.
    + rewrite (P2 eq_refl). cbn [Z.eqb]. lia.
    + rewrite (P3 eq_refl eq_refl). cbn [Z.eqb]. lia.
  - intros a b Ha Hb. rewrite !(coor_cmp K) by auto. unfold ptcmp, same_point. split.
    + intros H i Hi. destruct (Z.eqb_spec (axcmp (ax a 0) (ax b 0)) 0) as [E0|E0]; [|contradiction]. destruct (Z.eqb_spec (axcmp (ax a 1) (ax b 1)) 0) as [E1|E1]; [|contradiction]. destruct i as [|[|[|i]]]; [| | |lia]; apply axcmp_zero; auto.
    + intros H. rewrite !(proj2 (axcmp_zero _ _)); auto; apply H; lia.
Qed.
