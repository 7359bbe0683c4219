(** Lemmas about checked arrays. *)
From Coq Require Import ZArith List Lia Bool Arith ZifyBool ZifyNat.
From Verif Require Import Base.
Import ListNotations.
Open Scope Z_scope.

Global Arguments Z.of_nat : simpl never.
Global Arguments Z.to_nat : simpl never.
Global Arguments Z.add : simpl never.
Global Arguments Z.sub : simpl never.
Global Arguments Z.mul : simpl never.
Global Arguments Z.pow : simpl never.

Lemma upd_nth_length : forall A (l : list A) n x, length (upd_nth l n x) = length l.
Proof. induction l; destruct n; simpl; intros; auto. Qed.

Lemma upd_nth_app1 : forall A (l1 l2 : list A) n x, (n < length l1)%nat ->
  upd_nth (l1 ++ l2) n x = upd_nth l1 n x ++ l2.
Proof. induction l1; destruct n; simpl; intros; try lia; auto. f_equal. apply IHl1. lia. Qed.

Lemma upd_nth_app2 : forall A (l1 l2 : list A) n x,
  upd_nth (l1 ++ l2) (length l1 + n) x = l1 ++ upd_nth l2 n x.
Proof. induction l1; simpl; intros; auto. f_equal. apply IHl1. Qed.

Lemma upd_nth_map : forall A B (f : A -> B) (l : list A) n x,
  upd_nth (map f l) n (f x) = map f (upd_nth l n x).
Proof. induction l; destruct n; simpl; intros; auto. f_equal. apply IHl. Qed.

Lemma upd_nth_split : forall A (l : list A) n x, (n < length l)%nat ->
  upd_nth l n x = firstn n l ++ x :: skipn (S n) l.
Proof. induction l; destruct n; intros x Hn; simpl in *; try lia; auto. f_equal. apply IHl. lia. Qed.

Lemma nth_upd_nth : forall A (l : list A) n m x d,
  nth m (upd_nth l n x) d = if (m =? n)%nat then (if (n <? length l)%nat then x else d) else nth m l d.
Proof.
  induction l; intros n m x d; simpl.
  - destruct m, n; simpl; auto; destruct (m =? n)%nat; auto.
  - destruct n, m; simpl; auto. rewrite IHl. auto.
Qed.

Lemma nth_error_upd_nth : forall A (l : list A) n m x,
  nth_error (upd_nth l n x) m =
  if (m =? n)%nat then (if (n <? length l)%nat then Some x else None) else nth_error l m.
Proof.
  induction l; intros n m x; simpl.
  - destruct m, n; simpl; auto; destruct (m =? n)%nat; auto.
  - destruct n, m; simpl; auto. rewrite IHl. auto.
Qed.

Lemma rd_map : forall A (raw : list A) tail i d, 0 <= i -> (Z.to_nat i < length raw)%nat ->
  rd (map Some raw ++ tail) i = Ok (nth (Z.to_nat i) raw d).
Proof.
  intros A raw tail i d H0 Hi. unfold rd.
  destruct (0 <=? i) eqn:E; [|lia].
  rewrite nth_error_app1 by (rewrite map_length; lia).
  rewrite nth_error_map.
  rewrite (nth_error_nth' raw d Hi). reflexivity.
Qed.

Lemma wr_map : forall A (raw : list A) tail i x, 0 <= i -> (Z.to_nat i < length raw)%nat ->
  wr (map Some raw ++ tail) i x = Ok (map Some (upd_nth raw (Z.to_nat i) x) ++ tail).
Proof.
  intros. unfold wr. rewrite app_length, map_length.
  replace ((0 <=? i) && (i <? Z.of_nat (length raw + length tail))) with true by (symmetry; apply andb_true_iff; lia).
  rewrite upd_nth_app1 by (rewrite map_length; lia).
  rewrite <- upd_nth_map. reflexivity.
Qed.

Lemma wr_map_end : forall A (raw : list A) t tail x,
  wr (map Some raw ++ t :: tail) (Z.of_nat (length raw)) x = Ok (map Some (raw ++ [x]) ++ tail).
Proof.
  intros. unfold wr. rewrite app_length, map_length. simpl length.
  replace ((0 <=? Z.of_nat (length raw)) && (Z.of_nat (length raw) <? Z.of_nat (length raw + S (length tail)))) with true
    by (symmetry; apply andb_true_iff; lia).
  rewrite Nat2Z.id.
  replace (length raw) with (length (map (@Some A) raw) + 0)%nat by (rewrite map_length; lia).
  rewrite upd_nth_app2. simpl. rewrite map_app. simpl. rewrite <- app_assoc. reflexivity.
Qed.

Lemma resize_length : forall A (a : array A) n, 0 <= n -> Z.of_nat (length (resize a n)) = n.
Proof.
  intros. unfold resize. rewrite app_length, firstn_length, repeat_length. lia.
Qed.

Lemma resize_ge : forall A (a : array A) n, Z.of_nat (length a) <= n ->
  resize a n = a ++ repeat None (Z.to_nat n - length a).
Proof.
  intros. unfold resize. rewrite firstn_all2 by lia. reflexivity.
Qed.

Lemma resize_prefix : forall A (raw : list A) tail n, Z.of_nat (length raw) <= n ->
  exists tail', resize (map Some raw ++ tail) n = map Some raw ++ tail'.
Proof.
  intros. unfold resize. rewrite firstn_app, map_length.
  rewrite firstn_all2 by (rewrite map_length; lia).
  rewrite <- app_assoc. eexists. reflexivity.
Qed.

Lemma shl1_ok : forall p, 0 <= p <= 30 -> shl1 p = Ok (2 ^ p).
Proof. intros. unfold shl1. replace ((0 <=? p) && (p <? 31)) with true; auto. symmetry; apply andb_true_iff; lia. Qed.

Lemma shl1_inv : forall p s, shl1 p = Ok s -> 0 <= p <= 30 /\ s = 2 ^ p.
Proof. unfold shl1. intros p s. destruct (0 <=? p) eqn:A; destruct (p <? 31) eqn:B; simpl; intros; inversion H. lia. Qed.

Lemma bind_ok : forall A B (x : result A) (f : A -> result B) b,
  bind x f = Ok b -> exists a, x = Ok a /\ f a = Ok b.
Proof. intros A B [a| | |] f b H; simpl in H; try discriminate. eauto. Qed.
