(** Words of a text; what is printed can be scanned. *)
From Coq Require Import ZArith Bool Ascii String Floats.SpecFloat List Lia Arith ZifyBool ZifyNat.
From Verif Require Import Base BaseProofs ListSpec AttModel TopoModel ParModel FileModel FileSpec.
Import ListNotations.
Open Scope Z_scope.

(** ** Words *)
Fixpoint words (s : text) : list text :=
  match s with
  | [] => []
  | c :: s' =>
      if is_space c then words s' else
      match s' with
      | [] => [[c]]
      | d :: _ => if is_space d then [c] :: words s' else match words s' with w :: ws => (c :: w) :: ws | [] => [[c]] end
      end
  end.
Definition wordy (w : text) : Prop := w <> [] /\ Forall (fun c => is_space c = false) w.
Definition blank (s : text) : Prop := match s with [] => True | c :: _ => is_space c = true end.

Lemma words_sp : forall c s, is_space c = true -> words (c :: s) = words s.
Proof. intros. cbn. rewrite H. auto. Qed.
Lemma words_word : forall w s, wordy w -> blank s -> words (w ++ s) = w :: words s.
Proof.
  induction w as [|c w IH]; intros s [N F] B; [congruence|]. inversion F; subst. destruct w as [|d w].
  - cbn [app words]. rewrite H1. destruct s as [|d s]; auto. cbn in B. rewrite B. auto.
  - inversion H2; subst. pose proof (IH s ltac:(split; auto; discriminate) B) as E. change ((c :: d :: w) ++ s) with (c :: ((d :: w) ++ s)).
    remember ((d :: w) ++ s) as l eqn:L. cbn [words]. rewrite H1, E. rewrite L. cbn [app]. rewrite H3. auto.
Qed.
Lemma words_inv : forall s w ws, words s = w :: ws -> exists s', skip_ws s = w ++ s' /\ wordy w /\ blank s' /\ words s' = ws.
Proof.
  induction s as [|c s IH]; intros w ws H; [discriminate|]. cbn [words] in H. cbn [skip_ws]. destruct (is_space c) eqn:C; [auto|].
  destruct s as [|d s].
  - inversion H; subst. exists []. split; auto. split; [split; [discriminate|constructor; auto]|split; auto]. exact I.
  - destruct (is_space d) eqn:D.
    + inversion H; subst. exists (d :: s). split; auto. split; [split; [discriminate|constructor; auto]|split; auto].
    + destruct (words (d :: s)) as [|w1 ws1] eqn:W.
      * exfalso. cbn [words] in W. rewrite D in W. destruct s as [|q s]; [discriminate|]. destruct (is_space q); [discriminate|]. destruct (words (q :: s)); discriminate.
      * inversion H; subst. destruct (IH _ _ eq_refl) as (s' & E & [N F] & B & E2). exists s'. cbn [skip_ws] in E. rewrite D in E. rewrite E. split; auto. split; [split; [discriminate|constructor; auto]|split; auto].
Qed.
Lemma words_none : forall s, words s = [] -> skip_ws s = [].
Proof.
  induction s as [|c s IH]; intros H; auto. cbn [words] in H. cbn [skip_ws]. destruct (is_space c); auto. destruct s as [|d s]; [discriminate|].
  destruct (is_space d); [discriminate|]. destruct (words (d :: s)); discriminate.
Qed.

(** Texts after which a new word starts. *)
Definition closed (s : text) : Prop := forall r, words (s ++ r) = words s ++ words r.
Lemma closed_nil : closed [].
Proof. intro r. auto. Qed.
Lemma closed_app : forall a b, closed a -> closed b -> closed (a ++ b).
Proof. intros a b A B r. rewrite <- app_assoc, A, B, A, app_assoc. auto. Qed.
Lemma closed_sp : forall c, is_space c = true -> closed [c].
Proof. intros c C r. cbn [app]. rewrite words_sp by auto. rewrite words_sp by auto. auto. Qed.
Lemma words_cons : forall c d s, is_space c = false -> is_space d = false -> exists w ws, words (d :: s) = w :: ws /\ words (c :: d :: s) = (c :: w) :: ws.
Proof.
  intros c d s C D. destruct (words (d :: s)) as [|w ws] eqn:W.
  - exfalso. apply words_none in W. cbn in W. rewrite D in W. discriminate.
  - exists w, ws. split; auto. remember (d :: s) as l. cbn [words]. rewrite C, W. subst l. rewrite D. auto.
Qed.
Lemma words_split : forall a c r, is_space c = true -> words (a ++ c :: r) = words a ++ words r.
Proof.
  induction a as [|d a IH]; intros c r C; [cbn [app]; apply words_sp; auto|]. specialize (IH c r C).
  destruct (is_space d) eqn:D; [cbn [app]; rewrite !words_sp by auto; auto|]. destruct a as [|e a].
  - cbn [app]. cbn [words]. rewrite D, C. auto.
  - destruct (is_space e) eqn:E.
    + cbn [app] in *. assert (Q : forall x, words (d :: e :: x) = [d] :: words (e :: x)) by (intro x; remember (e :: x) as l; cbn [words]; rewrite D; subst l; rewrite E; auto).
      rewrite !Q. rewrite IH. auto.
    + cbn [app] in *. destruct (words_cons d e (a ++ c :: r) D E) as (w & ws & W1 & W2). destruct (words_cons d e a D E) as (w' & ws' & W3 & W4).
      rewrite W2, W4. rewrite W1, W3 in IH. cbn [app] in *. inversion IH. auto.
Qed.
Lemma closed_snoc : forall a c, is_space c = true -> closed (a ++ [c]).
Proof. intros a c C r. rewrite <- app_assoc. cbn [app]. rewrite !words_split by auto. rewrite app_nil_r. auto. Qed.

(** ** Words and the scanning functions *)
Lemma skip_idem : forall s, skip_ws (skip_ws s) = skip_ws s.
Proof. induction s as [|c s IH]; auto. cbn. destruct (is_space c) eqn:C; auto. cbn. rewrite C. auto. Qed.
Lemma span_all : forall p a s, Forall (fun c => p c = true) a -> match s with [] => True | c :: _ => p c = false end -> span p (a ++ s) = (a, s).
Proof.
  intros p. induction a as [|c a IH]; intros s F B; cbn.
  - destruct s as [|c s]; auto. cbn. rewrite B. auto.
  - inversion F; subst. rewrite H1, IH; auto.
Qed.
Lemma scan_s_ok : forall n s w ws, words s = w :: ws -> Z.of_nat (length w) < n -> exists s', scan_s n s = Ok (Some (w, s')) /\ words s' = ws.
Proof.
  intros n s w ws H L. destruct (words_inv _ _ _ H) as (s' & E & [N F] & B & W). exists s'. unfold scan_s. rewrite E.
  destruct (w ++ s') as [|c l] eqn:E2; [destruct w; [congruence|discriminate]|]. rewrite <- E2. rewrite span_all.
  - assert (Z.of_nat (length w) <? n = true) as -> by lia. auto.
  - eapply Forall_impl; [|exact F]. cbn. intros a ->. auto.
  - destruct s'; auto. cbn in B. rewrite B. auto.
Qed.
Lemma scan_s_none : forall n s, words s = [] -> scan_s n s = Ok None.
Proof. intros. unfold scan_s. rewrite words_none by auto. auto. Qed.

(** ** Digits *)
Lemma code_digit : forall d, 0 <= d < 10 -> code (digit d) = 48 + d.
Proof. intros. unfold code, digit. rewrite N_ascii_embedding by lia. lia. Qed.
Definition digs (a : text) : Prop := Forall (fun c => is_digit c = true) a.
Lemma digit_ok : forall d, 0 <= d < 10 -> is_digit (digit d) = true.
Proof. intros. unfold is_digit. rewrite code_digit by auto. lia. Qed.
Lemma digs_nosp : forall a, digs a -> Forall (fun c => is_space c = false) a.
Proof. intros a H. eapply Forall_impl; [|exact H]. unfold is_digit, is_space. intros. cbv beta in *. lia. Qed.
Lemma value_app : forall a b, value (a ++ b) = value a * 10 ^ Z.of_nat (length b) + value b.
Proof.
  intros a b. revert a. induction b as [|c b IH] using rev_ind; intros a.
  - rewrite app_nil_r. change (Z.of_nat (length (@nil ascii))) with 0. change (value []) with 0. change (10 ^ 0) with 1. lia.
  - rewrite app_assoc. unfold value in *. rewrite !fold_left_app. cbn [fold_left]. rewrite <- fold_left_app, IH.
    rewrite app_length. cbn [length]. rewrite Nat2Z.inj_add. rewrite Z.pow_add_r by lia. change (Z.of_nat 1) with 1. change (10 ^ 1) with 10. lia.
Qed.
Lemma value_digit : forall d, 0 <= d < 10 -> value [digit d] = d.
Proof. intros. unfold value. cbn [fold_left]. rewrite code_digit by auto. lia. Qed.
Lemma digits_ok : forall f n acc, 0 <= n -> n < 2 ^ Z.of_nat f -> exists a, digits f n acc = a ++ acc /\ digs a /\ value a = n /\ (f <> 0%nat -> a <> []).
Proof.
  induction f as [|f IH]; intros n acc N L.
  - change (2 ^ Z.of_nat 0) with 1 in L. exists []. repeat split; auto; try constructor; try congruence. change (value []) with 0. lia.
  - cbn [digits]. destruct (n <? 10) eqn:E.
    + exists [digit n]. repeat split; [constructor; [apply digit_ok; lia|constructor]|apply value_digit; lia|discriminate].
    + rewrite Nat2Z.inj_succ, Z.pow_succ_r in L by lia. assert (0 <= n mod 10 < 10) by (apply Z.mod_pos_bound; lia). pose proof (Z.div_mod n 10 ltac:(lia)) as DM.
      destruct (IH (n / 10) (digit (n mod 10) :: acc)) as (a & A1 & A2 & A3 & A4); [apply Z.div_pos; lia|lia|].
      exists (a ++ [digit (n mod 10)]). rewrite A1, <- app_assoc. split; auto. split; [apply Forall_app; split; auto; constructor; [apply digit_ok; auto|constructor]|].
      split; [rewrite value_app, A3, value_digit by auto; change (10 ^ Z.of_nat (length [digit (n mod 10)])) with 10; lia|]. intros _ Q. destruct a; discriminate.
Qed.
Lemma nat_text_ok : forall n, 0 <= n -> digs (nat_text n) /\ value (nat_text n) = n /\ nat_text n <> [].
Proof.
  intros n N. unfold nat_text. destruct (digits_ok (S (Z.to_nat (Z.log2 n))) n [] N) as (a & A1 & A2 & A3 & A4).
  - rewrite Nat2Z.inj_succ, Z2Nat.id by apply Z.log2_nonneg. destruct (Z.eq_dec n 0) as [->|Q]; [reflexivity|]. apply Z.log2_spec. lia.
  - rewrite A1, app_nil_r. auto.
Qed.
Lemma last_digits_ok : forall k n, 0 <= n < 10 ^ Z.of_nat k -> digs (last_digits k n) /\ value (last_digits k n) = n /\ length (last_digits k n) = k.
Proof.
  induction k as [|k IH]; intros n N.
  - change (10 ^ Z.of_nat 0) with 1 in N. split; [apply Forall_nil|]. split; [change (value (last_digits 0 n)) with 0; lia|auto].
  - rewrite Nat2Z.inj_succ, Z.pow_succ_r in N by lia. assert (0 <= n mod 10 < 10) by (apply Z.mod_pos_bound; lia). pose proof (Z.div_mod n 10 ltac:(lia)) as DM.
    destruct (IH (n / 10)) as (A & B & C); [lia|]. cbn [last_digits]. split; [apply Forall_app; split; auto; constructor; [apply digit_ok; auto|constructor]|].
    split; [rewrite value_app, B, value_digit by auto; change (10 ^ Z.of_nat (length [digit (n mod 10)])) with 10; lia|]. rewrite app_length, C. cbn. lia.
Qed.

(** ** Integers *)
Definition is_int (z : Z) : Prop := - 2 ^ 31 <= z < 2 ^ 31.
Lemma pd_wordy : forall z, wordy (pd z).
Proof.
  intros z. destruct (nat_text_ok (Z.abs z) ltac:(lia)) as (A & _ & N). unfold pd. split.
  - intro E. apply app_eq_nil in E. tauto.
  - apply Forall_app. split; [destruct (z <? 0); constructor; auto; constructor|apply digs_nosp; auto].
Qed.
Lemma opt_sign_none : forall c s, is_digit c = true -> opt_sign (c :: s) = (false, c :: s).
Proof.
  intros c s H. destruct c as [[|] [|] [|] [|] [|] [|] [|] [|]]; try reflexivity; discriminate.
Qed.
Lemma opt_sign_sign : forall g a s, digs a -> a <> [] -> opt_sign (sign g ++ a ++ s) = (g, a ++ s).
Proof. intros [|] a s D N; [reflexivity|]. destruct a as [|c a]; [congruence|]. inversion D; subst. cbn [sign app]. rewrite opt_sign_none; auto. Qed.
Lemma blank_nodigit : forall s, blank s -> match s with [] => True | c :: _ => is_digit c = false end.
Proof. intros [|c s]; auto. cbn. unfold is_space, is_digit. lia. Qed.
Lemma scan_d_ok : forall s z ws, words s = pd z :: ws -> is_int z -> exists s', scan_d s = Ok (Some (z, s')) /\ words s' = ws.
Proof.
  intros s z ws H I. destruct (words_inv _ _ _ H) as (s' & E & _ & B & W). exists s'. split; auto. unfold scan_d. rewrite E. unfold pd.
  destruct (nat_text_ok (Z.abs z) ltac:(lia)) as (D & V & N). rewrite <- app_assoc, opt_sign_sign by auto. rewrite span_all by (auto; apply blank_nodigit; auto).
  destruct (nat_text (Z.abs z)) as [|c l] eqn:T; [congruence|]. rewrite <- T in *. rewrite V.
  replace (if z <? 0 then - Z.abs z else Z.abs z) with z by (destruct (z <? 0) eqn:?; lia). unfold is_int in I.
  assert ((- 2 ^ 31 <=? z) && (z <? 2 ^ 31) = true) as -> by lia. auto.
Qed.

(** ** Doubles *)
Lemma nearest_nonneg : forall p q, 0 <= p -> 0 < q -> 0 <= nearest p q.
Proof. intros. unfold nearest. assert (0 <= p / q) by (apply Z.div_pos; lia). destruct (2 * (p mod q) <? q), (q <? 2 * (p mod q)), (Z.even (p / q)); lia. Qed.
Lemma printed_nonneg : forall k m e, 0 <= printed k m e.
Proof. intros. unfold printed. destruct (e <? 0) eqn:E; [apply nearest_nonneg; [|apply Z.pow_pos_nonneg]; try lia|]; repeat apply Z.mul_nonneg_nonneg; try apply Z.pow_nonneg; lia. Qed.
(** The text of a number: integer part and decimals. *)
Definition dec (g : bool) (k : nat) (n : Z) : text := sign g ++ nat_text (n / 10 ^ Z.of_nat k) ++ str "." ++ last_digits k (n mod 10 ^ Z.of_nat k).
Lemma fixed_dec : forall k x, fixed k x = match x with
  | S754_zero s => dec s k 0 | S754_finite s m e => dec s k (printed k m e)
  | S754_infinity s => sign s ++ str "inf" | S754_nan => str "nan" end.
Proof. intros k [s|s| |s m e]; auto. Qed.
Lemma sign_nosp : forall g, Forall (fun c => is_space c = false) (sign g).
Proof. intros [|]; repeat constructor. Qed.
Lemma pow10 : forall k : nat, 0 < 10 ^ Z.of_nat k.
Proof. intros. apply Z.pow_pos_nonneg; lia. Qed.
Lemma dec_wordy : forall g k n, 0 <= n -> wordy (dec g k n).
Proof.
  intros g k n N. pose proof (pow10 k). destruct (nat_text_ok (n / 10 ^ Z.of_nat k)) as (A & _ & B); [apply Z.div_pos; lia|]. destruct (last_digits_ok k (n mod 10 ^ Z.of_nat k)) as (C & _ & _); [apply Z.mod_pos_bound; lia|].
  unfold dec. split; [intro E; apply app_eq_nil in E; destruct E as [_ E]; apply app_eq_nil in E; tauto|].
  apply Forall_app. split; [apply sign_nosp|]. apply Forall_app. split; [apply digs_nosp; auto|]. apply Forall_app. split; [constructor; auto|apply digs_nosp; auto].
Qed.
Lemma fixed_wordy : forall k x, wordy (fixed k x).
Proof.
  intros k x. rewrite fixed_dec. destruct x as [s|s| |s m e]; try (apply dec_wordy; try apply printed_nonneg; lia).
  - split; [destruct s; discriminate|]. apply Forall_app. split; [apply sign_nosp|]. repeat constructor.
  - split; [discriminate|]. repeat constructor.
Qed.
Lemma starts_digit : forall c w d s, is_digit d = true -> is_digit c = false -> starts (c :: w) (d :: s) = false.
Proof. intros c w d s D C. cbn. destruct (Ascii.eqb_spec c d); auto. subst. congruence. Qed.
Lemma no_exp : forall c, is_space c = true -> existsb (Ascii.eqb c) (str "eExXpP") = false.
Proof. intros c H. destruct c as [[|] [|] [|] [|] [|] [|] [|] [|]]; try reflexivity; discriminate. Qed.
Lemma scan_dec : forall s g k n s', 0 <= n -> skip_ws s = dec g k n ++ s' -> blank s' -> scan_f s = Ok (Some (to_double g n (10 ^ Z.of_nat k), s')).
Proof.
  intros s g k n s' N E B. pose proof (pow10 k). unfold scan_f. rewrite E. unfold dec.
  destruct (nat_text_ok (n / 10 ^ Z.of_nat k)) as (A1 & A2 & A3); [apply Z.div_pos; lia|]. destruct (last_digits_ok k (n mod 10 ^ Z.of_nat k)) as (C1 & C2 & C3); [apply Z.mod_pos_bound; lia|].
  rewrite <- !app_assoc, opt_sign_sign by auto. destruct (nat_text (n / 10 ^ Z.of_nat k)) as [|c l] eqn:T; [congruence|]. inversion A1; subst.
  assert (E1 : starts (str "inf") ((c :: l) ++ str "." ++ last_digits k (n mod 10 ^ Z.of_nat k) ++ s') = false) by (apply starts_digit; auto).
  assert (E2 : starts (str "nan") ((c :: l) ++ str "." ++ last_digits k (n mod 10 ^ Z.of_nat k) ++ s') = false) by (apply starts_digit; auto).
  rewrite E1, E2, span_all; [|auto|reflexivity]. change (str "." ++ last_digits k (n mod 10 ^ Z.of_nat k) ++ s') with ("."%char :: (last_digits k (n mod 10 ^ Z.of_nat k) ++ s')).
  cbv beta iota. rewrite span_all by (auto; apply blank_nodigit; auto). change ((c :: l) ++ last_digits k (n mod 10 ^ Z.of_nat k)) with (c :: (l ++ last_digits k (n mod 10 ^ Z.of_nat k))). cbv iota.
  change (c :: l ++ last_digits k (n mod 10 ^ Z.of_nat k)) with ((c :: l) ++ last_digits k (n mod 10 ^ Z.of_nat k)). rewrite value_app, A2, C2, C3.
  replace (n / 10 ^ Z.of_nat k * 10 ^ Z.of_nat k + n mod 10 ^ Z.of_nat k) with n by (pose proof (Z.div_mod n (10 ^ Z.of_nat k) ltac:(lia)); lia).
  destruct s' as [|d s']; auto. rewrite no_exp by exact B. auto.
Qed.
Lemma scan_f_ok : forall s k x ws, words s = fixed k x :: ws -> exists s', scan_f s = Ok (Some (back k x, s')) /\ words s' = ws.
Proof.
  intros s k x ws H. destruct (words_inv _ _ _ H) as (s' & E & _ & B & W). exists s'. split; auto. rewrite fixed_dec in E. destruct x as [g|g| |g m e].
  - rewrite (scan_dec s g k 0 s') by (auto; lia). reflexivity.
  - unfold scan_f. rewrite E. destruct g; reflexivity.
  - unfold scan_f. rewrite E. reflexivity.
  - rewrite (scan_dec s g k (printed k m e) s') by (auto; apply printed_nonneg). reflexivity.
Qed.

(** ** Words of the printed pieces *)
Lemma words_one : forall w c s, wordy w -> is_space c = true -> words (w ++ c :: s) = w :: words s.
Proof. intros. rewrite words_word by (auto; exact H0). rewrite words_sp; auto. Qed.
Lemma words_width : forall n w s, words (width n w ++ s) = words (w ++ s).
Proof. intros. unfold width. generalize (n - length w)%nat as j. induction j; cbn [repeat app]; auto. Qed.
