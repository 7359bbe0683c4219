(** How close a double is to its printed decimals read again. *)
From Coq Require Import ZArith Bool Reals Lra Lia Floats.SpecFloat.
From Flocq Require Import Core BinarySingleNaN PrimFloat.
From Verif Require Import FileModel FileSpec.
Open Scope R_scope.

Local Notation fx := (fexp 53 1024).
Local Notation rnd := (round radix2 fx ZnearestE).
Local Instance vfx : Valid_exp fx.
Proof. apply fexp_correct. reflexivity. Qed.
Local Instance mfx : Monotone_exp fx.
Proof. exact (FLT_exp_monotone (-1074) 53). Qed.
Definition val (x : spec_float) : R := SF2R radix2 x.
Definition valid (x : spec_float) : Prop := valid_binary 53 1024 x = true.
Definition finite (x : spec_float) : Prop := is_finite_SF x = true.
Definition T (k : nat) : Z := (10 ^ Z.of_nat k)%Z.
Lemma T_pos : forall k, (0 < T k)%Z.
Proof. intro k. apply Z.pow_pos_nonneg; lia. Qed.
Lemma T_R : forall k, 0 < IZR (T k).
Proof. intro k. apply IZR_lt. apply T_pos. Qed.

Lemma nearest_Z : forall p q, (0 < q -> - q <= 2 * (nearest p q * q - p) <= q)%Z.
Proof.
  intros p q Q. unfold nearest. pose proof (Z.div_mod p q ltac:(lia)) as D. pose proof (Z.mod_pos_bound p q Q) as B. set (a := (p / q)%Z) in *. set (r := (p mod q)%Z) in *.
  cbv zeta. destruct (Z.ltb_spec (2 * r) q); [nia|]. destruct (Z.ltb_spec q (2 * r)); [nia|]. destruct (Z.even a); nia.
Qed.
Lemma nearest_nonneg : forall p q, (0 <= p -> 0 < q -> 0 <= nearest p q)%Z.
Proof. intros p q A Q. pose proof (nearest_Z p q Q). nia. Qed.
Lemma printed_nonneg : forall k m e, (0 <= printed k m e)%Z.
Proof.
  intros k m e. pose proof (T_pos k) as TP. unfold T in TP. unfold printed. destruct (Z.ltb_spec e 0).
  - apply nearest_nonneg; [nia|apply Z.pow_pos_nonneg; lia].
  - pose proof (Z.pow_pos_nonneg 2 e). nia.
Qed.
Definition mant (m : positive) (e : Z) : R := F2R (Float radix2 (Zpos m) e).
Lemma printed_err : forall k m e, Rabs (IZR (printed k m e) - mant m e * IZR (T k)) <= / 2.
Proof.
  intros k m e. unfold printed, mant, F2R. cbn [Fnum Fexp]. fold (T k). destruct (Z.ltb_spec e 0) as [H|H].
  - pose proof (Z.pow_pos_nonneg 2 (- e) ltac:(lia) ltac:(lia)) as Q. pose proof (nearest_Z (Zpos m * T k) (2 ^ (- e)) Q) as [A B]. set (q := (2 ^ (- e))%Z) in *.
    assert (E : bpow radix2 e = / IZR q) by (unfold q; change 2%Z with (radix_val radix2); rewrite (IZR_Zpower radix2) by lia; rewrite <- bpow_opp; f_equal; lia). rewrite E.
    apply IZR_le in A. apply IZR_le in B. rewrite opp_IZR in A. rewrite mult_IZR, minus_IZR, !mult_IZR in A, B. apply IZR_lt in Q.
    set (n := IZR (nearest (Zpos m * T k) q)) in *. set (Q' := IZR q) in *. set (p := IZR (Zpos m)) in *. set (t := IZR (T k)) in *.
    replace (n - p * / Q' * t) with ((n * Q' - p * t) * / Q') by (field; lra). rewrite Rabs_mult, (Rabs_pos_eq (/ Q')) by (left; apply Rinv_0_lt_compat; auto).
    apply Rmult_le_reg_r with Q'; auto. rewrite Rmult_assoc, Rinv_l, Rmult_1_r by lra. apply Rabs_le. lra.
  - rewrite !mult_IZR. change 2%Z with (radix_val radix2). rewrite (IZR_Zpower radix2) by lia. replace (_ - _) with 0 by ring. rewrite Rabs_R0. change (IZR radix2) with 2. lra.
Qed.
Lemma val_finite : forall s m e, val (S754_finite s m e) = cond_Ropp s (mant m e).
Proof. intros. unfold val, mant. cbn [SF2R]. apply F2R_cond_Zopp. Qed.
Lemma mant_pos : forall m e, 0 < mant m e.
Proof. intros. apply F2R_gt_0. reflexivity. Qed.
Lemma cond_sub : forall s x y, Rabs (cond_Ropp s x - cond_Ropp s y) = Rabs (x - y).
Proof. intros [] x y; cbn; auto. replace (- x - - y) with (- (x - y)) by ring. apply Rabs_Ropp. Qed.
Lemma val_format : forall x, valid x -> generic_format radix2 fx (val x).
Proof. intros x V. unfold val. rewrite <- (B2R_SF2B 53 1024 x V). apply generic_format_B2R. Qed.
Lemma val_lt : forall x, valid x -> Rabs (val x) < bpow radix2 1024.
Proof. intros x V. unfold val. rewrite <- (B2R_SF2B 53 1024 x V). apply abs_B2R_lt_emax. Qed.
Lemma SF_eq : forall x y, valid x -> valid y -> finite x -> finite y -> val x = val y -> sign_SF x = sign_SF y -> x = y.
Proof.
  intros x y V W F G E S. rewrite <- (B2SF_SF2B 53 1024 x V), <- (B2SF_SF2B 53 1024 y W). f_equal. apply B2R_Bsign_inj; rewrite ?is_finite_SF2B, ?Bsign_SF2B, ?B2R_SF2B; auto.
Qed.

Lemma to_double_ok : forall s n d, (0 <= n -> 0 < d)%Z -> (0 <= n)%Z -> Rabs (rnd (cond_Ropp s (IZR n / IZR d))) < bpow radix2 1024 ->
  let z := to_double s n d in valid z /\ finite z /\ val z = rnd (cond_Ropp s (IZR n / IZR d)) /\ sign_SF z = s.
Proof.
  intros s n d Hd Hn O. specialize (Hd Hn). unfold to_double. destruct (Z.eqb_spec n 0) as [-> | N0].
  - cbv zeta. unfold valid, finite, val. cbn. split; auto. split; auto. split; auto. unfold Rdiv. rewrite Rmult_0_l. destruct s; cbn; rewrite ?Ropp_0, round_0; auto; typeclasses eauto.
  - destruct n as [|n|n]; try lia. destruct d as [|d|d]; try lia.
    pose proof (Bdiv_correct_aux 53 1024 eq_refl eq_refl mode_NE s n 0 false d 0) as H. cbv zeta in H. rewrite xorb_false_r in H. cbn [round_mode cond_Zopp] in H.
    rewrite F2R_cond_Zopp in H. unfold F2R in H. cbn [Fnum Fexp] in H. change (bpow radix2 0) with 1 in H. rewrite !Rmult_1_r in H.
    assert (EQ : cond_Ropp s (IZR (Z.pos n)) / IZR (Z.pos d) = cond_Ropp s (IZR (Z.pos n) / IZR (Z.pos d))) by (destruct s; cbn; unfold Rdiv; ring). rewrite EQ in H.
    change 53%Z with FloatOps.prec in *. change 1024%Z with FloatOps.emax in *.
    destruct (SFdiv_core_binary FloatOps.prec FloatOps.emax (Z.pos n) 0 (Z.pos d) 0) as [[q e] l]. rewrite binary_round_aux_equiv. cbv zeta. destruct H as [V H]. rewrite Rlt_bool_true in H by exact O. destruct H as (H1 & H2 & H3). split; [exact V|]. split; [exact H2|]. split; [exact H1|exact H3].
Qed.
(** ** Reading the printed decimals *)
Definition dec (k : nat) (s : bool) (m : positive) (e : Z) : R := cond_Ropp s (IZR (printed k m e) / IZR (T k)).
Lemma dec_err : forall k s m e, Rabs (dec k s m e - val (S754_finite s m e)) <= / IZR (T k) / 2.
Proof.
  intros k s m e. unfold dec. rewrite val_finite, cond_sub. pose proof (printed_err k m e) as H. pose proof (T_R k) as TP.
  apply Rmult_le_reg_r with (IZR (T k)); auto. rewrite <- (Rabs_pos_eq (IZR (T k))) at 2 by lra. rewrite <- Rabs_mult.
  replace ((IZR (printed k m e) / IZR (T k) - mant m e) * IZR (T k)) with (IZR (printed k m e) - mant m e * IZR (T k)) by (field; lra).
  replace (/ IZR (T k) / 2 * IZR (T k)) with (/ 2) by (field; lra). auto.
Qed.
Lemma near : forall k s m e, valid (S754_finite s m e) -> Rabs (rnd (dec k s m e) - val (S754_finite s m e)) <= / IZR (T k).
Proof.
  intros k s m e V. pose proof (dec_err k s m e) as D. destruct (round_N_pt radix2 fx (fun x => negb (Z.even x)) (dec k s m e)) as [_ N]. specialize (N _ (val_format _ V)).
  set (X := val _) in *. set (E := dec k s m e) in *. set (Y := rnd E) in *. change (round radix2 fx (Znearest (fun x => negb (Z.even x))) E) with Y in N.
  replace (Y - X) with ((Y - E) + (E - X)) by ring. eapply Rle_trans; [apply Rabs_triang|]. rewrite (Rabs_minus_sym X E) in N. lra.
Qed.
Lemma no_overflow : forall k s m e, valid (S754_finite s m e) -> Rabs (rnd (dec k s m e)) < bpow radix2 1024.
Proof.
  intros k s m e V. destruct (Z.ltb_spec e 0) as [H|H].
  - assert (M : mant m e <= bpow radix2 53).
    { unfold mant, F2R. cbn [Fnum Fexp]. assert (Zpos m < 2 ^ 53)%Z.
      { unfold valid in V. cbn in V. pose proof (canonical_bounded 53 1024 false m e V) as C. unfold canonical, cexp in C. cbn [Fexp] in C. rewrite mag_F2R_Zdigits in C by (cbn; lia). cbn [Fnum Fexp] in C.
        assert (ND : (Digits.Zdigits radix2 (Z.pos m) <= 53)%Z) by (revert C; unfold fexp; set (dg := Digits.Zdigits _ _); cbn [cond_Zopp]; unfold emin; lia).
        pose proof (Zpower_gt_Zdigits radix2 53 (Z.pos m) ND) as Q. rewrite Z.abs_eq in Q by lia. exact Q. }
      apply IZR_lt in H0. change (2 ^ 53)%Z with (radix_val radix2 ^ 53)%Z in H0. rewrite (IZR_Zpower radix2) in H0 by lia. pose proof (bpow_gt_0 radix2 e). assert (bpow radix2 e <= 1) by (change 1 with (bpow radix2 0); apply bpow_le; lia).
      pose proof (bpow_gt_0 radix2 53). nra. }
    apply Rle_lt_trans with (bpow radix2 54); [|apply bpow_lt; lia]. apply abs_round_le_generic; try typeclasses eauto; [apply generic_format_bpow; vm_compute; discriminate|].
    pose proof (dec_err k s m e) as D. pose proof (T_R k) as TP. assert (/ IZR (T k) <= 1).
    { rewrite <- Rinv_1. apply Rinv_le; [lra|]. change 1 with (IZR 1). apply IZR_le. pose proof (T_pos k). lia. }
    assert (Rabs (val (S754_finite s m e)) <= bpow radix2 53) by (rewrite val_finite, abs_cond_Ropp, Rabs_pos_eq by (left; apply mant_pos); auto).
    pose proof (Rabs_triang_inv (dec k s m e) (val (S754_finite s m e))). change (bpow radix2 54) with 18014398509481984. change (bpow radix2 53) with 9007199254740992 in *. lra.
  - assert (E : dec k s m e = val (S754_finite s m e)).
    { rewrite val_finite. unfold dec. f_equal. unfold printed, mant, F2R. cbn [Fnum Fexp]. destruct (Z.ltb_spec e 0); [lia|]. fold (T k). rewrite !mult_IZR. change 2%Z with (radix_val radix2). rewrite (IZR_Zpower radix2) by lia. pose proof (T_R k). field. lra. }
    rewrite E, round_generic; [apply val_lt; auto|typeclasses eauto|apply val_format; auto].
Qed.
Lemma back_ok : forall k s m e, valid (S754_finite s m e) -> let z := back k (S754_finite s m e) in valid z /\ finite z /\ val z = rnd (dec k s m e) /\ sign_SF z = s.
Proof. intros k s m e V. cbn [back]. apply to_double_ok; [intros; apply T_pos|apply printed_nonneg|apply no_overflow; auto]. Qed.

(** ** Large numbers come back exactly *)
Definition fits (k : nat) (t : Z) : Prop :=
  (- 1000 < t < 1000)%Z /\ bpow radix2 (t - 53) < / IZR (T k) < bpow radix2 (t - 52) /\ exists N, bpow radix2 t * IZR (T k) = IZR N.
Lemma multiple : forall t X, (- 1000 < t)%Z -> generic_format radix2 fx X -> bpow radix2 t <= Rabs X -> exists n, X = IZR n * bpow radix2 (t - 52).
Proof.
  intros t X Ht F B. apply mag_gt_bpow in B. assert (C : (t - 52 <= cexp radix2 fx X)%Z) by (unfold cexp, fexp; lia).
  exists (Ztrunc (scaled_mantissa radix2 fx X) * radix2 ^ (cexp radix2 fx X - (t - 52)))%Z. rewrite mult_IZR, IZR_Zpower by lia. rewrite Rmult_assoc, <- bpow_plus.
  replace (cexp radix2 fx X - (t - 52) + (t - 52))%Z with (cexp radix2 fx X) by ring. exact F.
Qed.
Lemma IZR_half : forall a b, IZR a >= IZR b - / 2 -> (b <= a)%Z.
Proof. intros a b H. destruct (Z_le_gt_dec b a); auto. assert (a <= b - 1)%Z as Q by lia. apply IZR_le in Q. rewrite minus_IZR in Q. lra. Qed.
Lemma exact_big : forall k t x, fits k t -> valid x -> finite x -> bpow radix2 t <= Rabs (val x) -> back k x = x.
Proof.
  intros k t x (Ht & [F1 F2] & N & FN) V F B. destruct x as [s|s| |s m e]; auto. destruct (back_ok k s m e V) as (V' & F' & E & S). apply SF_eq; auto.
  rewrite E. pose proof (near k s m e V) as NR. set (Y := rnd (dec k s m e)) in *.
  assert (BY : bpow radix2 t <= Rabs Y).
  { unfold Y. apply abs_round_ge_generic; try typeclasses eauto; [apply generic_format_bpow; unfold fexp, emin; lia|]. unfold dec. rewrite abs_cond_Ropp. pose proof (T_R k) as TP. pose proof (printed_nonneg k m e) as P0. apply IZR_le in P0.
    rewrite Rabs_pos_eq by (apply Rmult_le_pos; auto; left; apply Rinv_0_lt_compat; auto). rewrite val_finite, abs_cond_Ropp, Rabs_pos_eq in B by (left; apply mant_pos).
    pose proof (printed_err k m e) as PE. apply Rabs_le_inv in PE. assert (N <= printed k m e)%Z as Q.
    { apply IZR_half. rewrite <- FN. pose proof (Rmult_le_compat_r _ _ _ (Rlt_le _ _ TP) B). lra. }
    apply IZR_le in Q. rewrite <- FN in Q. apply Rmult_le_reg_r with (IZR (T k)); auto. unfold Rdiv. rewrite Rmult_assoc, Rinv_l, Rmult_1_r by lra. auto. }
  destruct (multiple t Y) as (a & EA); [lia|apply generic_format_round; typeclasses eauto|auto|]. destruct (multiple t (val (S754_finite s m e))) as (b & EB); [lia|apply val_format; auto|auto|].
  rewrite EA, EB in NR |- *. rewrite <- Rmult_minus_distr_r, <- minus_IZR, Rabs_mult, (Rabs_pos_eq (bpow _ _)), <- abs_IZR in NR by apply bpow_ge_0. pose proof (bpow_gt_0 radix2 (t - 52)).
  destruct (Z.eq_dec a b) as [->|NE]; auto. exfalso. assert (1 <= Z.abs (a - b))%Z as Q by lia. apply IZR_le in Q. nra.
Qed.
(** ** Numbers nearest to decimals come back exactly *)
Lemma exact_dec : forall k t s n x, fits k t -> (0 <= n)%Z -> x = to_double s n (T k) -> Rabs (rnd (cond_Ropp s (IZR n / IZR (T k)))) < bpow radix2 1024 -> back k x = x.
Proof.
  intros k t s n x FT Hn -> O. destruct (to_double_ok s n (T k) (fun _ => T_pos k) Hn O) as (V & F & E & S). set (x := to_double s n (T k)) in *.
  destruct (Rle_or_lt (bpow radix2 t) (Rabs (val x))) as [B|B]; [apply (exact_big k t); auto|]. destruct FT as (Ht & [F1 F2] & _).
  destruct x as [g|g| |g m e] eqn:EX; auto. cbn [sign_SF] in S. subst g. cbn [back]. fold (T k). fold x in EX. rewrite <- EX. unfold x. f_equal.
  assert (NZ : rnd (cond_Ropp s (IZR n / IZR (T k))) <> 0) by (rewrite <- E, val_finite; pose proof (mant_pos m e); destruct s; cbn; lra).
  pose proof (error_le_half_ulp_round radix2 fx (fun x => negb (Z.even x)) (cond_Ropp s (IZR n / IZR (T k)))) as ER. 
  change (round radix2 fx (Znearest (fun x => negb (Z.even x)))) with (round radix2 fx ZnearestE) in ER. rewrite ulp_neq_0 in ER by auto. rewrite <- E in ER, NZ.
  assert (U : bpow radix2 (cexp radix2 fx (val (S754_finite s m e))) <= bpow radix2 (t - 53)) by (apply bpow_le; pose proof (mag_le_bpow radix2 _ t NZ B); unfold cexp, fexp, emin; lia).
  rewrite val_finite, cond_sub in ER. pose proof (printed_err k m e) as PE. pose proof (T_R k) as TP. rewrite val_finite in U.
  assert (LT : Rabs (mant m e * IZR (T k) - IZR n) < / 2).
  { replace (mant m e * IZR (T k) - IZR n) with ((mant m e - IZR n / IZR (T k)) * IZR (T k)) by (field; lra). rewrite Rabs_mult, (Rabs_pos_eq (IZR (T k))) by lra.
    apply Rlt_le_trans with (/ 2 * / IZR (T k) * IZR (T k)); [|right; field; lra]. apply Rmult_lt_compat_r; auto. lra. }
  apply Rabs_le_inv in PE. apply Rabs_lt_inv in LT. assert (A1 : IZR (printed k m e) - IZR n < 1) by lra. assert (A2 : IZR n - IZR (printed k m e) < 1) by lra.
  rewrite <- minus_IZR in A1, A2. apply (lt_IZR _ 1) in A1. apply (lt_IZR _ 1) in A2. lia.
Qed.
Lemma fits16 : fits 16 (-1).
Proof.
  split; [lia|]. change (T 16) with 10000000000000000%Z. change (bpow radix2 (-1 - 53)) with (/ 18014398509481984). change (bpow radix2 (-1 - 52)) with (/ 9007199254740992). change (bpow radix2 (-1)) with (/ 2).
  split; [lra|]. exists 5000000000000000%Z. lra.
Qed.
Lemma fits6 : fits 6 33.
Proof.
  split; [lia|]. change (T 6) with 1000000%Z. change (bpow radix2 (33 - 53)) with (/ 1048576). change (bpow radix2 (33 - 52)) with (/ 524288). change (bpow radix2 33) with 8589934592.
  split; [lra|]. exists 8589934592000000%Z. lra.
Qed.
Lemma back_back : forall k t x, fits k t -> valid x -> back k (back k x) = back k x.
Proof.
  intros k t x FT V. destruct x as [s|s| |s m e]; auto. apply (exact_dec k t s (printed k m e)); auto; [apply printed_nonneg|]. apply (no_overflow k s m e V).
Qed.
