(** Proofs about the assignment of global IDs: the matching of candidates. *)
From Coq Require Import ZArith List Lia Bool Arith ZifyBool ZifyNat Permutation Sorting.Sorted.
From Verif Require Import Base BaseProofs SortModel CompareModel CompareProps MeshModel AttModel AttProps TopoModel TopoProofs ParModel ParProps CommModel CommProofs CommProofs2 ExchModel ExchProofs ExchProofs2 ExchProofs4 LabelModel GidModel GidProofs.
Import ListNotations.
Open Scope Z_scope.

Definition un {A} (d : A) (r : result A) : A := match r with Ok x => x | _ => d end.

Lemma nth_upd : forall A (l : list A) k m x d, (k < length l)%nat -> nth m (upd_nth l k x) d = if (m =? k)%nat then x else nth m l d.
Proof. intros. rewrite nth_upd_nth. replace (k <? length l)%nat with true by lia. auto. Qed.
Lemma nth_error_upd : forall A (l : list A) k m x, (k < length l)%nat -> nth_error (upd_nth l k x) m = if (m =? k)%nat then Some x else nth_error l m.
Proof. intros. rewrite nth_error_upd_nth. replace (k <? length l)%nat with true by lia. auto. Qed.

Lemma flen_le : forall A (f : A -> bool) l, (length (filter f l) <= length l)%nat.
Proof. intros A f l. induction l as [|x l IH]; cbn [filter length]. lia. destruct (f x); cbn [length]; lia. Qed.

Lemma psum_app : forall f a b, psum f (a ++ b) = psum f a + psum f b.
Proof. intros f a b. induction a as [|x a IH]; cbn [psum app]; lia. Qed.
Lemma psum_le : forall f g l, (forall q, In q l -> f q <= g q) -> psum f l <= psum g l.
Proof. intros f g l H. induction l as [|x l IH]; cbn [psum]. lia. assert (f x <= g x) by (apply H; cbn; auto). assert (psum f l <= psum g l) by (apply IH; intros; apply H; cbn; auto). lia. Qed.
Lemma zrange_in : forall a b x, In x (zrange a b) <-> a <= x < b.
Proof. intros. unfold zrange. rewrite in_map_iff. split. intros (k & <- & H). apply in_seq in H. lia. intros H. exists (Z.to_nat (x - a)). split. lia. apply in_seq. lia. Qed.
Lemma zrange_app : forall a b d, a <= b <= d -> zrange a d = zrange a b ++ zrange b d.
Proof.
  intros a b d H. remember (Z.to_nat (d - b)) as k eqn:Ek. revert d H Ek. induction k as [|k IH]; intros d H Ek.
  - replace d with b by lia. rewrite (zrange_nil b b) by lia. rewrite app_nil_r. auto.
  - replace d with ((d - 1) + 1) by lia. rewrite (zrange_snoc a), (zrange_snoc b) by lia. rewrite app_assoc, <- IH by lia. auto.
Qed.

(** ** What a numbering is

    [all p] are the entities of rank [p], [twin p e q e'] says that [e] of rank [p] and
    [e'] of rank [q] are copies of the same entity; [old] and [new] are the states of
    the entities of each rank before and after. *)
Definition owned (all : list ptr) (s : gents) : list ptr := filter (fun e => negb (g_pt s e =? PGHOST)) all.
(** The number of owned entities of the ranks below [p]. *)
Definition owned_below (all : Z -> list ptr) (new : Z -> gents) (p : Z) : Z := psum (fun q => ZL (owned (all q) (new q))) (zrange 0 p).
Record numbering (n : Z) (all : Z -> list ptr) (twin : Z -> ptr -> Z -> ptr -> Prop) (old new : Z -> gents) : Prop := mkNum {
  num_ghost : forall p e, on n p -> In e (all p) -> g_pt (new p) e = PGHOST <-> exists q e', 0 <= q < p /\ In e' (all q) /\ twin p e q e';
  num_owner : forall p e, on n p -> In e (all p) -> g_pt (new p) e = PGHOST ->
    exists q e', 0 <= q < p /\ In e' (all q) /\ twin p e q e' /\ (forall q' e'', 0 <= q' < q -> In e'' (all q') -> ~ twin p e q' e'') /\
      g_mas (new p) e = q /\ g_pt (new q) e' <> PGHOST /\ g_id (new p) e = g_id (new q) e';
  num_owned : forall p e, on n p -> In e (all p) -> g_pt (new p) e <> PGHOST -> g_mas (new p) e = p;
  num_overlap : forall p e, on n p -> In e (all p) -> g_pt (new p) e <> PGHOST -> (exists q e', p < q < n /\ In e' (all q) /\ twin p e q e') -> g_pt (new p) e = POVERLAP;
  num_inner : forall p e, on n p -> In e (all p) -> g_pt (new p) e <> PGHOST -> (forall q e', p < q < n -> In e' (all q) -> ~ twin p e q e') -> g_pt (new p) e = g_pt (old p) e;
  num_kept : forall p e, on n p -> In e (all p) -> g_pt (new p) e <> PGHOST -> g_id (old p) e <> 0 -> g_id (new p) e = g_id (old p) e;
  num_fresh : forall p e a b, on n p -> all p = a ++ e :: b -> g_pt (new p) e <> PGHOST -> g_id (old p) e = 0 ->
    g_id (new p) e = 1 + owned_below all new p + ZL (filter (fun e => g_id (old p) e =? 0) (owned a (new p)));
  num_range : forall p, on n p -> owned_below all new p + ZL (all p) < 2 ^ 31 - 1 }.

Section Match.
  Variables (N : nat) (c : mcfg) (junk : Z -> Z -> Z) (info : Z -> list Z) (id : Z -> ptr -> Z) (all cand : Z -> list ptr) (key : Z -> ptr -> list Z).
  Variables (keyM : Z -> ptr -> result (list Z)) (kcmp : list Z -> list Z -> result Z) (ecmp : Z -> ptr -> ptr -> result Z) (es : Z -> gents).
  Variables (D : list Z -> Prop) (C : list Z -> list Z -> Z) (Sm : list Z -> list Z -> Prop).
  Let n := Z.of_nat N.
  Hypothesis HN : (0 < N)%nat.
  Hypothesis HC : preorder3 D C Sm.
  Hypothesis HD : forall p e, on n p -> In e (cand p) -> D (key p e) /\ Z.of_nat (length (key p e)) <= c_wd c.
  Hypothesis Hk : forall p e, on n p -> In e (cand p) -> keyM p e = Ok (key p e).
  Hypothesis He : forall p e e', on n p -> In e (cand p) -> In e' (cand p) -> ecmp p e e' = Ok (C (key p e) (key p e')).
  Hypothesis Hkc : forall k k' j, D k -> D k' -> Z.of_nat (length (k' ++ j)) = c_wd c -> kcmp k (k' ++ j) = Ok (C k k').
  Hypothesis Hdist : forall p e e', on n p -> In e (cand p) -> In e' (cand p) -> Sm (key p e) (key p e') -> e = e'.
  Hypothesis Hnd : forall p, on n p -> NoDup (cand p).
  Hypothesis Hinfo : forall p, on n p -> length (info p) = 10%nat /\ nth (Z.to_nat (c_num c)) (info p) 0 = ZL (all p).
  Hypothesis Hcfg : 1 <= c_wd c /\ 0 <= c_num c < 9 /\ 0 <= c_bnd c < 9 /\ c_num c <> c_bnd c /\ c_min c <= 1.

  Lemma Sm_refl : forall k, D k -> Sm k k.
  Proof. intros k H. destruct HC as (A & B & E). apply E; auto. pose proof (A k k H H). lia. Qed.
  Lemma Sm_sym : forall a b, D a -> D b -> Sm a b -> Sm b a.
  Proof. intros a b Ha Hb H. destruct HC as (A & B & E). apply E; auto. apply E in H; auto. pose proof (A a b Ha Hb). lia. Qed.
  Lemma Sm_trans : forall a b d, D a -> D b -> D d -> Sm a b -> Sm b d -> Sm a d.
  Proof.
    intros a b d Ha Hb Hd H1 H2. destruct HC as (A & B & E). apply E; auto. apply E in H1; auto. apply E in H2; auto. pose proof (B a b d Ha Hb Hd). pose proof (A a b Ha Hb). pose proof (A b d Hb Hd). pose proof (B d b a Hd Hb Ha). pose proof (A a d Ha Hd). lia.
  Qed.

  (** ** Candidates in order *)
  Definition bl (p : Z) : list ptr := un [] (pqsort (ecmp p) (cand p)).
  Definition nb (p : Z) : Z := ZL (bl p).
  Definition at_ (p i : Z) : ptr := nth (Z.to_nat i) (bl p) 0.
  Lemma bl_ok : forall p, on n p -> pqsort (ecmp p) (cand p) = Ok (bl p) /\ Permutation (bl p) (cand p) /\ StronglySorted (fun a b => C (key p a) (key p b) <= 0) (bl p).
  Proof.
    intros p Hp. destruct HC as (A & B & E). destruct (pqsort_ord (ecmp p) (fun a b => C (key p a) (key p b)) (cand p)) as (r & E1 & P & SS).
    - intros. apply He; auto.
    - intros a b Ha Hb H. pose proof (A (key p a) (key p b) (proj1 (HD p a Hp Ha)) (proj1 (HD p b Hp Hb))). lia.
    - intros a b d Ha Hb Hd. apply B; apply HD; auto.
    - unfold bl. rewrite E1. cbn [un]. auto.
  Qed.
  Lemma bl_in : forall p e, on n p -> In e (bl p) <-> In e (cand p).
  Proof. intros p e Hp. destruct (bl_ok p Hp) as (_ & P & _). split; intros H. apply (Permutation_in _ P H). apply (Permutation_in _ (Permutation_sym P) H). Qed.
  Lemma bl_nd : forall p, on n p -> NoDup (bl p).
  Proof. intros p Hp. destruct (bl_ok p Hp) as (_ & P & _). eapply Permutation_NoDup; [apply Permutation_sym; eauto|auto]. Qed.
  Lemma at_in : forall p i, 0 <= i < nb p -> In (at_ p i) (bl p).
  Proof. intros p i H. unfold at_. apply nth_In. unfold nb, ZL in H. lia. Qed.
  Lemma at_D : forall p i, on n p -> 0 <= i < nb p -> D (key p (at_ p i)).
  Proof. intros p i Hp H. apply HD; auto. apply bl_in; auto. apply at_in; auto. Qed.
  Lemma at_inj : forall p i j, on n p -> 0 <= i < nb p -> 0 <= j < nb p -> at_ p i = at_ p j -> i = j.
  Proof. intros p i j Hp Hi Hj H. unfold nb, ZL in *. assert (Z.to_nat i = Z.to_nat j); [|lia]. apply (proj1 (NoDup_nth (bl p) 0) (bl_nd p Hp)); try lia. auto. Qed.
  Lemma at_ex : forall p e, In e (bl p) -> exists i, 0 <= i < nb p /\ at_ p i = e.
  Proof. intros p e H. destruct (In_nth _ _ 0 H) as (i & Hi & E). exists (Z.of_nat i). unfold at_, nb, ZL. rewrite Nat2Z.id. split; auto. lia. Qed.
  (** Ascending strictly. *)
  Lemma at_lt : forall p i j, on n p -> 0 <= i < j -> j < nb p -> C (key p (at_ p i)) (key p (at_ p j)) < 0.
  Proof.
    intros p i j Hp Hij Hj. destruct (bl_ok p Hp) as (_ & _ & SS). unfold nb, ZL in Hj. pose proof (sorted_nth _ (bl p) (Z.to_nat i) (Z.to_nat j) SS ltac:(lia)) as L. cbv beta in L. fold (at_ p i) (at_ p j) in L.
    assert (Ne : C (key p (at_ p i)) (key p (at_ p j)) <> 0); [|lia]. intro E. assert (Di : D (key p (at_ p i))) by (apply at_D; auto; unfold nb, ZL; lia). assert (Dj : D (key p (at_ p j))) by (apply at_D; auto; unfold nb, ZL; lia).
    assert (Q : at_ p i = at_ p j). { apply (Hdist p); auto. apply bl_in; auto. apply at_in. unfold nb, ZL; lia. apply bl_in; auto. apply at_in. unfold nb, ZL; lia. apply HC; auto. }
    apply at_inj in Q; auto; unfold nb, ZL; lia.
  Qed.

  (** ** First gather *)
  Definition inf1 (p : Z) : list Z := un [] (wrl (info p) (c_bnd c) (nb p)).
  Lemma inf1_ok : forall p, on n p -> wrl (info p) (c_bnd c) (nb p) = Ok (inf1 p) /\ Z.of_nat (length (inf1 p)) = 10 /\ nth (Z.to_nat (c_bnd c)) (inf1 p) 0 = nb p /\ nth (Z.to_nat (c_num c)) (inf1 p) 0 = ZL (all p).
  Proof.
    intros p Hp. destruct (Hinfo p Hp) as (L & E). assert (H : wrl (info p) (c_bnd c) (nb p) = Ok (upd_nth (info p) (Z.to_nat (c_bnd c)) (nb p))) by (apply wrl_ok; lia).
    unfold inf1. rewrite H. cbn [un]. split; auto. rewrite upd_nth_length. split. lia. rewrite !nth_upd by lia. split. destruct (Nat.eqb_spec (Z.to_nat (c_bnd c)) (Z.to_nat (c_bnd c))); auto; lia. destruct (Nat.eqb_spec (Z.to_nat (c_num c)) (Z.to_nat (c_bnd c))); auto; lia.
  Qed.
  Definition gi1 : list Z := concat (map inf1 (ranks n)).
  Lemma gi1_bnd : forall j, on n j -> rdl gi1 (10 * j + c_bnd c) = Ok (nb j).
  Proof.
    intros j Hj. unfold gi1, n. rewrite (rdl_gather N inf1 10). f_equal. apply inf1_ok; auto. intros p Hp. apply inf1_ok; auto. auto. lia.
  Qed.
  Definition mx : Z := un 0 (max_count c n gi1).
  Lemma mx_ok : max_count c n gi1 = Ok mx /\ 0 <= mx /\ forall j, on n j -> nb j <= mx.
  Proof.
    destruct (foldM_up _ (fun k m => 0 <= m /\ forall j, 0 <= j < k -> nb j <= m) (fun m i => x <- rdl gi1 (10 * i + c_bnd c) ;; Ok (if m <? x then x else m)) 0 n 0) as (m & E & H1 & H2).
    - unfold n; lia.
    - split. lia. intros; lia.
    - intros k m Hk' (H1 & H2). rewrite gi1_bnd by (unfold on; lia). cbn [bind]. eexists. split; [reflexivity|]. assert (0 <= nb k) by (unfold nb, ZL; lia). destruct (Z.ltb_spec m (nb k)). split. lia. intros j Hj. destruct (Z.eq_dec j k) as [->|]. lia. specialize (H2 j). lia. split. lia. intros j Hj. destruct (Z.eq_dec j k) as [->|]. lia. apply H2. lia.
    - unfold mx, max_count. rewrite E. cbn [un]. split; auto.
  Qed.

  (** ** Keys of all ranks *)
  Definition lst (p : Z) : array Z := un [] (pack c mx (bl p) (keyM p)).
  Lemma lst_ok : forall p, on n p -> pack c mx (bl p) (keyM p) = Ok (lst p) /\ Z.of_nat (length (lst p)) = c_wd c * mx /\ forall i, 0 <= i < nb p -> holds (lst p) (c_wd c * i) (key p (at_ p i)).
  Proof.
    intros p Hp. destruct (pack_ok c mx (bl p) (keyM p) (key p)) as (a & E & L & H). lia. apply mx_ok; auto. intros e Hi. apply bl_in in Hi; auto. split. apply Hk; auto. apply HD; auto.
    unfold lst. rewrite E. cbn [un]. auto.
  Qed.
  Definition sent (p : Z) : list Z := fill (junk p) (lst p).
  Definition recv : list Z := concat (map sent (ranks n)).
  Lemma recv_ok : forall j i k, on n j -> 0 <= i < nb j -> D k -> exists x, rdrec recv (c_wd c * mx * j + c_wd c * i) (c_wd c) = Ok x /\ kcmp k x = Ok (C k (key j (at_ j i))).
  Proof.
    intros j i k Hj Hi Dk. destruct (lst_ok j Hj) as (_ & L & H). pose proof (proj2 (proj2 mx_ok) j Hj) as M. unfold recv, n. rewrite (rdrec_gather N sent (c_wd c * mx)).
    - destruct (fill_rec (junk j) (lst j) (c_wd c * i) (key j (at_ j i)) (c_wd c)) as (jk & E1 & E2). auto. apply HD; auto. apply bl_in; auto. apply at_in; auto. nia. unfold sent. rewrite E1. eexists. split; [reflexivity|]. apply Hkc; auto. apply at_D; auto.
    - intros p Hp. unfold sent. rewrite fill_length. apply lst_ok; auto.
    - auto.
    - nia.
    - lia.
    - nia.
  Qed.

  (** ** First match *)
  Definition mt (p : Z) (e : ptr) (j i : Z) : Prop := on n j /\ j <> p /\ 0 <= i < nb j /\ Sm (key p e) (key j (at_ j i)).
  Lemma search_rank : forall j k, on n j -> D k -> exists r, ksearch (Z.to_nat (nb j)) (kcmp k) recv (c_wd c * mx * j) (c_wd c) 0 (nb j) = Ok r /\
    match r with Some i => 0 <= i < nb j /\ Sm k (key j (at_ j i)) | None => forall i, 0 <= i < nb j -> ~ Sm k (key j (at_ j i)) end.
  Proof.
    intros j k Hj Dk. assert (NB : 0 <= nb j) by (unfold nb, ZL; lia).
    destruct (ksearch_ok (kcmp k) recv (c_wd c * mx * j) (c_wd c) (nb j) (fun i => C k (key j (at_ j i)))) with (k := Z.to_nat (nb j)) (lo := 0) (hi := nb j) as (r & E & H); try lia.
    - intros i Hi. apply recv_ok; auto.
    - intros i i' Hi Hi'. pose proof (at_lt j i i' Hj Hi Hi') as L. pose proof (at_D j i Hj ltac:(lia)) as D1. pose proof (at_D j i' Hj ltac:(lia)) as D2. destruct HC as (A & B & _).
      set (a := key j (at_ j i)) in *. set (b := key j (at_ j i')) in *. pose proof (A a b D1 D2). pose proof (A k a Dk D1). pose proof (A k b Dk D2). pose proof (B k a b Dk D1 D2). pose proof (B a b k D1 D2 Dk). pose proof (B b k a D2 Dk D1). pose proof (B b a k D2 D1 Dk). pose proof (B a k b D1 Dk D2). split; intros; lia.
    - exists r. split; auto. destruct r as [i|]. destruct H as (H1 & H2). split; auto. apply HC; auto. apply at_D; auto. intros i Hi S1. apply (H i Hi). apply HC in S1; auto. apply at_D; auto.
  Qed.
  Definition fmM (p m : Z) (e : ptr) : result (option (Z * Z)) := first_match c mx p gi1 recv (kcmp (key p e)) (zrange 0 m).
  Lemma fm_ok : forall p e m, on n p -> In e (cand p) -> 0 <= m <= n -> exists r, fmM p m e = Ok r /\
    match r with Some (j, i) => 0 <= j < m /\ mt p e j i /\ forall j' i', j' < j -> ~ mt p e j' i' | None => forall j i, j < m -> ~ mt p e j i end.
  Proof.
    intros p e m Hp Hin Hm. assert (Dk : D (key p e)) by (apply HD; auto).
    assert (G : forall lo, 0 <= lo <= m -> (forall j i, j < lo -> ~ mt p e j i) -> exists r, first_match c mx p gi1 recv (kcmp (key p e)) (zrange lo m) = Ok r /\ match r with Some (j, i) => 0 <= j < m /\ mt p e j i /\ forall j' i', j' < j -> ~ mt p e j' i' | None => forall j i, j < m -> ~ mt p e j i end).
    { intros lo. remember (Z.to_nat (m - lo)) as k eqn:Ek. revert lo Ek. induction k as [|k IH]; intros lo Ek Hlo NM.
      - rewrite zrange_nil by lia. exists None. split; auto. intros j i Hj. apply NM. lia.
      - rewrite zrange_cons by lia. cbn [first_match]. assert (Hj : on n lo) by (unfold on; lia). destruct (Z.eqb_spec lo p) as [E|E].
        + apply IH; try lia. intros j i Hj'. destruct (Z.eq_dec j lo) as [->|]. intros (_ & X & _). lia. apply NM. lia.
        + rewrite gi1_bnd by auto. cbn [bind]. destruct (search_rank lo (key p e) Hj Dk) as (r & Er & Hr). rewrite Er. cbn [bind]. destruct r as [i|].
          * exists (Some (lo, i)). split; [reflexivity|]. split; [lia|]. split; [exact (conj Hj (conj E Hr))|]. intros j' i' Hj'. apply NM. auto.
          * apply IH; try lia. intros j i Hj'. destruct (Z.eq_dec j lo) as [->|]. intros (_ & _ & X1 & X2). apply (Hr i); auto. apply NM. lia. }
    apply G. lia. intros j i Hj (X & _). unfold on in X. lia.
  Qed.
  (** The match used by rank [p]. *)
  Definition lim (p : Z) : Z := if c_all c then n else p.
  Definition fm (p : Z) (e : ptr) : option (Z * Z) := un None (fmM p (lim p) e).
  Lemma fm_spec : forall p e, on n p -> In e (cand p) -> fmM p (lim p) e = Ok (fm p e) /\
    match fm p e with Some (j, i) => 0 <= j < lim p /\ mt p e j i /\ forall j' i', j' < j -> ~ mt p e j' i' | None => forall j i, j < lim p -> ~ mt p e j i end.
  Proof.
    intros p e Hp Hin. destruct (fm_ok p e (lim p) Hp Hin) as (r & E & H). unfold lim, on in *. destruct (c_all c); lia. unfold fm. rewrite E. cbn [un]. auto.
  Qed.
  (** On a lower rank. *)
  Definition low (p : Z) (e : ptr) : option (Z * Z) := match fm p e with Some (j, i) => if j <? p then Some (j, i) else None | None => None end.
  Lemma low_spec : forall p e, on n p -> In e (cand p) -> match low p e with Some (j, i) => 0 <= j < p /\ mt p e j i /\ forall j' i', j' < j -> ~ mt p e j' i' | None => forall j i, j < p -> ~ mt p e j i end.
  Proof.
    intros p e Hp Hin. destruct (fm_spec p e Hp Hin) as (_ & H). unfold low. assert (L : p <= lim p) by (unfold lim, on in *; destruct (c_all c); lia). destruct (fm p e) as [(j, i)|].
    - destruct H as (H1 & H2 & H3). destruct (Z.ltb_spec j p). split; [lia|auto]. intros j' i' Hj'. apply H3. lia.
    - intros j i Hj. apply H. lia.
  Qed.
  Definition ghostb (p : Z) (e : ptr) : bool := if in_dec Z.eq_dec e (cand p) then match low p e with Some _ => true | None => false end else false.
  Lemma mt_trans : forall p q e e' j i, on n p -> on n q -> In e (cand p) -> In e' (cand q) -> Sm (key p e) (key q e') -> mt q e' j i -> j <> p -> mt p e j i.
  Proof.
    intros p q e e' j i Hp Hq H1 H2 S1 (A1 & A2 & A3 & A4) Nj. split; auto. split; auto. split; auto. eapply Sm_trans; [| | |exact S1|exact A4]. apply HD; auto. apply HD; auto. apply at_D; auto.
  Qed.
  (** The entity found is no ghost. *)
  Lemma low_owned : forall p e j i, on n p -> In e (cand p) -> low p e = Some (j, i) -> on n j /\ 0 <= i < nb j /\ ghostb j (at_ j i) = false.
  Proof.
    intros p e j i Hp Hin E. pose proof (low_spec p e Hp Hin) as L. rewrite E in L. destruct L as (L1 & L2 & L3). destruct L2 as (M1 & M2 & M3 & M4). split; auto. split; auto.
    unfold ghostb. destruct (in_dec Z.eq_dec (at_ j i) (cand j)) as [I|I]; auto. pose proof (low_spec j (at_ j i) M1 I) as L'. destruct (low j (at_ j i)) as [(j', i')|]; auto. destruct L' as (K1 & K2 & _). exfalso. apply (L3 j' i'). lia. eapply mt_trans; eauto. lia.
  Qed.

  (** ** Search loop *)
  Definition after_search (p k : Z) (s : sstate) : Prop :=
    let '(s', ovl, idon, ng) := s in
    g_id s' = g_id (es p) /\
    (forall e, (forall i, 0 <= i < k -> at_ p i = e -> low p e = None) -> g_pt s' e = g_pt (es p) e /\ g_mas s' e = g_mas (es p) e) /\
    (forall i j t, 0 <= i < k -> low p (at_ p i) = Some (j, t) -> g_pt s' (at_ p i) = PGHOST /\ g_mas s' (at_ p i) = j /\ rd idon i = Ok t /\ nth (Z.to_nat (mx * j + t)) ovl 0 <> 0) /\
    length ovl = Z.to_nat (n * mx) /\ length idon = Z.to_nat mx /\
    (forall x, nth x ovl 0 <> 0 -> exists i j t, 0 <= i < k /\ low p (at_ p i) = Some (j, t) /\ x = Z.to_nat (mx * j + t)) /\
    ng = Z.of_nat (length (filter (ghostb p) (firstn (Z.to_nat k) (bl p)))) /\
    (forall e, g_bd s' e = g_bd (es p) e || (c_all c && existsb (fun x => (x =? e) && match fm p x with Some _ => true | None => false end) (firstn (Z.to_nat k) (bl p)))).
  Lemma firstn_at : forall p k, 0 <= k < nb p -> firstn (Z.to_nat (k + 1)) (bl p) = firstn (Z.to_nat k) (bl p) ++ [at_ p k].
  Proof.
    intros p k H. unfold nb, ZL, at_ in *. replace (Z.to_nat (k + 1)) with (S (Z.to_nat k)) by lia. generalize dependent (bl p). intros l Hl. assert (X : (Z.to_nat k < length l)%nat) by lia. clear Hl. revert l X. induction (Z.to_nat k) as [|m IH]; intros l X; destruct l; cbn in X; try lia. auto. cbn [firstn nth app]. f_equal. apply IH. lia.
  Qed.
  Lemma lor1 : forall x, Z.lor x 1 <> 0.
  Proof. intros x H. assert (Z.testbit (Z.lor x 1) 0 = true). rewrite Z.lor_spec. apply orb_true_r. rewrite H in H0. discriminate. Qed.
  Lemma search1_ok : forall p k s, on n p -> 0 <= k < nb p -> after_search p k s -> exists s', search1 c mx n p gi1 recv (bl p) (keyM p) kcmp s k = Ok s' /\ after_search p (k + 1) s'.
  Proof.
    intros p k (((s, ovl), idon), ng) Hp Hkk (I1 & I2 & I3 & I4 & I5 & I6 & I7 & I8). unfold search1. rewrite lent_ok by lia. cbn [bind]. fold (at_ p k).
    assert (Hin : In (at_ p k) (cand p)) by (apply bl_in; auto; apply at_in; auto). rewrite Hk by auto. cbn [bind]. change (if c_all c then n else p) with (lim p). fold (fmM p (lim p) (at_ p k)). destruct (fm_spec p (at_ p k) Hp Hin) as (EF & HF). rewrite EF. cbn [bind].
    pose proof (low_spec p (at_ p k) Hp Hin) as LS. assert (GB : ghostb p (at_ p k) = match low p (at_ p k) with Some _ => true | None => false end) by (unfold ghostb; destruct (in_dec Z.eq_dec (at_ p k) (cand p)); auto; contradiction).
    pose proof (firstn_at p k Hkk) as FA.
    assert (OTH : forall i, 0 <= i < k -> at_ p i <> at_ p k). { intros i Hi E. apply at_inj in E; auto; lia. }
    assert (MXN : forall j, on n j -> nb j <= mx) by apply mx_ok.
    unfold low in LS, GB. destruct (fm p (at_ p k)) as [(j, t)|] eqn:EFM.
    - destruct HF as (HF1 & HF2 & HF3). destruct HF2 as (J1 & J2 & J3 & J4). destruct (Z.ltb_spec j p) as [JP|JP].
      + assert (LK : low p (at_ p k) = Some (j, t)). { unfold low. rewrite EFM. replace (j <? p) with true by lia. auto. }
        pose proof (MXN j J1). unfold on in J1, Hp. rewrite rdl_ok by nia. cbn [bind]. rewrite wrl_ok by nia. cbn [bind].
        assert (WR : wr idon k t = Ok (upd_nth idon (Z.to_nat k) (Some t))). { unfold wr. pose proof (MXN p Hp). replace ((0 <=? k) && (k <? Z.of_nat (length idon))) with true by lia. auto. }
        rewrite WR. cbn [bind]. eexists. split; [reflexivity|]. set (s' := set_mas (set_pt s (at_ p k) PGHOST) (at_ p k) j).
        assert (S1 : forall x y, g_id (if x : bool then set_bd s' y else s') = g_id s) by (intros [|] y; reflexivity).
        assert (S2 : forall (x : bool) y e, g_pt (if x then set_bd s' y else s') e = if e =? at_ p k then PGHOST else g_pt s e) by (intros [|] y e; unfold s'; cbn; unfold zupd; reflexivity).
        assert (S3 : forall (x : bool) y e, g_mas (if x then set_bd s' y else s') e = if e =? at_ p k then j else g_mas s e) by (intros [|] y e; unfold s'; cbn; unfold zupd; reflexivity).
        split; [rewrite S1; auto|]. split.
        { intros e He'. assert (Ne : e <> at_ p k). { intros ->. specialize (He' k ltac:(lia) eq_refl). congruence. } rewrite S2, S3. destruct (Z.eqb_spec e (at_ p k)); [contradiction|]. apply I2. intros i Hi. apply He'. lia. }
        split.
        { intros i j' t' Hi HL. rewrite S2, S3. rewrite nth_upd by nia. destruct (Z.eq_dec i k) as [->|Ne].
          - rewrite LK in HL. inversion HL; subst j' t'. rewrite Z.eqb_refl. split; auto. split; auto. split.
            + unfold rd. replace (0 <=? k) with true by lia. pose proof (MXN p Hp). rewrite nth_error_upd by lia. rewrite Nat.eqb_refl. auto.
            + rewrite Nat.eqb_refl. apply lor1.
          - destruct (I3 i j' t' ltac:(lia) HL) as (Q1 & Q2 & Q3 & Q4). destruct (Z.eqb_spec (at_ p i) (at_ p k)) as [E|E]. exfalso. apply (OTH i); auto. lia. split; auto. split; auto. split.
            + rewrite <- Q3. unfold rd. destruct (Z.leb_spec 0 i); auto. pose proof (MXN p Hp). rewrite nth_error_upd by lia. destruct (Nat.eqb_spec (Z.to_nat i) (Z.to_nat k)); auto. lia.
            + destruct (Nat.eqb_spec (Z.to_nat (mx * j' + t')) (Z.to_nat (mx * j + t))); auto. apply lor1. }
        split. rewrite upd_nth_length. auto. split. rewrite upd_nth_length. auto. split.
        { intros x Hx. rewrite nth_upd_nth in Hx by nia. destruct (Nat.eqb_spec x (Z.to_nat (mx * j + t))) as [E|E]. exists k, j, t. split. lia. split; auto. destruct (I6 x Hx) as (i & j' & t' & Q1 & Q2 & Q3). exists i, j', t'. split. lia. auto. }
        split.
        { rewrite FA, filter_app, app_length. cbn [filter]. rewrite GB. cbn [length]. lia. }
        { intros e. rewrite FA, existsb_app. cbn [existsb]. rewrite EFM, orb_false_r, andb_true_r. destruct (c_all c); cbn [andb].
          - unfold set_bd. cbn [g_bd]. unfold zupd. unfold s'. cbn [set_mas set_pt g_bd]. rewrite I8. cbn [andb]. rewrite (Z.eqb_sym e). destruct (Z.eqb_spec (at_ p k) e); cbn [orb]; rewrite ?orb_true_r, ?orb_false_r; auto.
          - unfold s'. cbn [set_mas set_pt g_bd]. rewrite I8. cbn [andb]. auto. }
      + eexists. split; [reflexivity|]. assert (LK : low p (at_ p k) = None). { unfold low. rewrite EFM. replace (j <? p) with false by lia. auto. }
        assert (S1 : forall x y, g_id (if x : bool then set_bd s y else s) = g_id s /\ g_pt (if x : bool then set_bd s y else s) = g_pt s /\ g_mas (if x : bool then set_bd s y else s) = g_mas s) by (intros [|] y; auto).
        destruct (S1 (c_all c) (at_ p k)) as (S2 & S3 & S4). unfold after_search. rewrite S2, S3, S4. split; auto. split. { intros e He'. apply I2. intros i Hi. apply He'. lia. }
        split. { intros i j' t' Hi HL. destruct (Z.eq_dec i k) as [->|Ne]. congruence. apply I3; auto. lia. }
        split; auto. split; auto. split. { intros x Hx. destruct (I6 x Hx) as (i & j' & t' & Q1 & Q2 & Q3). exists i, j', t'. split. lia. auto. }
        split. { rewrite FA, filter_app, app_length. cbn [filter]. rewrite GB. cbn [length]. lia. }
        { intros e. rewrite FA, existsb_app. cbn [existsb]. rewrite EFM, orb_false_r, andb_true_r. destruct (c_all c); cbn [andb].
          - unfold set_bd. cbn [g_bd]. unfold zupd. rewrite I8. cbn [andb]. rewrite (Z.eqb_sym e). destruct (Z.eqb_spec (at_ p k) e); cbn [orb]; rewrite ?orb_true_r, ?orb_false_r; auto.
          - rewrite I8. cbn [andb]. auto. }
    - exists (s, ovl, idon, ng). split; auto. assert (LK : low p (at_ p k) = None). { unfold low. rewrite EFM. auto. }
      split; auto. split. { intros e He'. apply I2. intros i Hi. apply He'. lia. }
      split. { intros i j' t' Hi HL. destruct (Z.eq_dec i k) as [->|Ne]. congruence. apply I3; auto. lia. }
      split; auto. split; auto. split. { intros x Hx. destruct (I6 x Hx) as (i & j' & t' & Q1 & Q2 & Q3). exists i, j', t'. split. lia. auto. }
      split. { rewrite FA, filter_app, app_length. cbn [filter]. rewrite GB. cbn [length]. lia. }
      { intros e. rewrite FA, existsb_app. cbn [existsb]. rewrite EFM, andb_false_r, !orb_false_r. rewrite I8. auto. }
  Qed.
  Definition srchM (p : Z) : result sstate := search c mx n p gi1 recv (bl p) (keyM p) kcmp (es p).
  Definition srch (p : Z) : sstate := un (es p, [], [], 0) (srchM p).
  (** On ranks that do not search there is nothing to find below. *)
  Definition bd_of (p : Z) (s : gents) : Prop :=
    forall e, g_bd s e = g_bd (es p) e || (c_all c && (c_min c <=? p) && existsb (fun x => (x =? e) && match fm p x with Some _ => true | None => false end) (bl p)).
  Lemma srch_ok : forall p, on n p -> srchM p = Ok (srch p) /\
    let '(s', ovl, idon, ng) := srch p in
    g_id s' = g_id (es p) /\
    (forall e, ghostb p e = false -> g_pt s' e = g_pt (es p) e /\ g_mas s' e = g_mas (es p) e) /\
    (forall i j t, 0 <= i < nb p -> low p (at_ p i) = Some (j, t) -> g_pt s' (at_ p i) = PGHOST /\ g_mas s' (at_ p i) = j /\ rd idon i = Ok t /\ nth (Z.to_nat (mx * j + t)) ovl 0 <> 0) /\
    length ovl = Z.to_nat (n * mx) /\
    (forall x, nth x ovl 0 <> 0 -> exists i j t, 0 <= i < nb p /\ low p (at_ p i) = Some (j, t) /\ x = Z.to_nat (mx * j + t)) /\
    ng = Z.of_nat (length (filter (ghostb p) (bl p))) /\ bd_of p s'.
  Proof.
    intros p Hp.
    assert (A0 : after_search p 0 (es p, repeat 0 (Z.to_nat (n * mx)), malloc mx, 0)).
    { split; auto. split; auto. split. intros; lia. split. apply repeat_length. split. apply malloc_length. split. { intros x Hx. exfalso. apply Hx. assert (X : forall k j, nth j (repeat 0 k) 0 = 0). { induction k as [|k IH]; intros [|j]; cbn; auto. } apply X. }
      split. auto. intros e. cbn [Z.to_nat firstn existsb]. rewrite andb_false_r, orb_false_r. auto. }
    assert (G : exists s, srchM p = Ok s /\ ((c_min c <=? p = true /\ after_search p (nb p) s) \/ (p = 0 /\ c_min c <=? p = false /\ s = (es p, repeat 0 (Z.to_nat (n * mx)), malloc mx, 0)))).
    { unfold srchM, search. destruct (Z.leb_spec (c_min c) p) as [L|L].
      - destruct (foldM_up _ (after_search p) (search1 c mx n p gi1 recv (bl p) (keyM p) kcmp) 0 (nb p) (es p, repeat 0 (Z.to_nat (n * mx)), malloc mx, 0)) as (s & E & H). unfold nb, ZL; lia. auto. intros k s Hkk Hs. apply search1_ok; auto. exists s. split; auto.
      - eexists. split; [reflexivity|]. right. unfold on in Hp. split; [lia|]. auto. }
    destruct G as (s & E & H). unfold srch. rewrite E. cbn [un]. split; auto. destruct H as [(Hm & H)|(-> & Hm & ->)].
    - destruct s as (((s', ovl), idon), ng). destruct H as (I1 & I2 & I3 & I4 & I5 & I6 & I7 & I8). split; auto. split. { intros e Hg. apply I2. intros i Hi E'. unfold ghostb in Hg. destruct (in_dec Z.eq_dec e (cand p)) as [I|I]. destruct (low p e); auto; discriminate. exfalso. apply I. rewrite <- E'. apply bl_in; auto. apply at_in; auto. }
      split; auto. split; auto. split; auto. assert (FN : firstn (Z.to_nat (nb p)) (bl p) = bl p) by (unfold nb, ZL; rewrite Nat2Z.id; apply firstn_all). rewrite FN in *. split; auto. intros e. rewrite I8, Hm, andb_true_r. auto.
    - assert (NL : forall e, In e (cand 0) -> low 0 e = None). { intros e Hin. pose proof (low_spec 0 e Hp Hin) as L. destruct (low 0 e) as [(j, t)|]; auto. lia. }
      destruct A0 as (_ & _ & _ & A4 & _ & A6 & _). split; auto. split; auto. split. { intros i j t Hi HL. rewrite NL in HL. discriminate. apply bl_in; auto. apply at_in; auto. }
      split; auto. split. { intros x Hx. destruct (A6 x Hx) as (i & j & t & B & _). lia. }
      split. { assert (F : filter (ghostb 0) (bl 0) = []). { assert (X : forall l, (forall e, In e l -> In e (cand 0)) -> filter (ghostb 0) l = []). { induction l as [|x l IH]; intros Hl; cbn [filter]; auto. unfold ghostb at 1. destruct (in_dec Z.eq_dec x (cand 0)); [rewrite NL by (apply Hl; cbn; auto)|]; apply IH; intros; apply Hl; cbn; auto. } apply X. intros e. apply bl_in; auto. } rewrite F. auto. }
      intros e. rewrite Hm, andb_false_r. cbn [andb]. rewrite orb_false_r. auto.
  Qed.

  (** ** Second gather and labels *)
  Definition s1 (p : Z) : gents := let '(s, _, _, _) := srch p in s.
  Definition ovl1 (p : Z) : list Z := let '(_, o, _, _) := srch p in o.
  Definition idon (p : Z) : array Z := let '(_, _, d, _) := srch p in d.
  Definition ng (p : Z) : Z := let '(_, _, _, g) := srch p in g.
  Lemma srch_eq : forall p, srch p = (s1 p, ovl1 p, idon p, ng p).
  Proof. intros. unfold s1, ovl1, idon, ng. destruct (srch p) as (((a, b), d), e). auto. Qed.
  Lemma s1_ok : forall p, on n p -> 
    g_id (s1 p) = g_id (es p) /\
    (forall e, ghostb p e = false -> g_pt (s1 p) e = g_pt (es p) e /\ g_mas (s1 p) e = g_mas (es p) e) /\
    (forall i j t, 0 <= i < nb p -> low p (at_ p i) = Some (j, t) -> g_pt (s1 p) (at_ p i) = PGHOST /\ g_mas (s1 p) (at_ p i) = j /\ rd (idon p) i = Ok t /\ nth (Z.to_nat (mx * j + t)) (ovl1 p) 0 <> 0) /\
    length (ovl1 p) = Z.to_nat (n * mx) /\
    (forall x, nth x (ovl1 p) 0 <> 0 -> exists i j t, 0 <= i < nb p /\ low p (at_ p i) = Some (j, t) /\ x = Z.to_nat (mx * j + t)) /\
    ng p = Z.of_nat (length (filter (ghostb p) (bl p))) /\ bd_of p (s1 p).
  Proof. intros p Hp. destruct (srch_ok p Hp) as (_ & H). rewrite srch_eq in H. exact H. Qed.
  Definition inf2 (p : Z) : list Z := un [] (wrl (inf1 p) 9 (ng p)).
  Lemma inf2_ok : forall p, on n p -> wrl (inf1 p) 9 (ng p) = Ok (inf2 p) /\ Z.of_nat (length (inf2 p)) = 10 /\ nth 9 (inf2 p) 0 = ng p /\ nth (Z.to_nat (c_num c)) (inf2 p) 0 = ZL (all p) /\ (forall k, (k < 9)%nat -> k <> Z.to_nat (c_bnd c) -> nth k (inf2 p) 0 = nth k (info p) 0).
  Proof.
    intros p Hp. destruct (inf1_ok p Hp) as (E1 & L & _ & E). assert (H : wrl (inf1 p) 9 (ng p) = Ok (upd_nth (inf1 p) 9 (ng p))) by (rewrite wrl_ok by lia; auto). unfold inf2. rewrite H. cbn [un]. split; auto. rewrite upd_nth_length. split. lia. rewrite !nth_upd by lia. split; auto. split. destruct (Nat.eqb_spec (Z.to_nat (c_num c)) 9); auto; lia.
    intros k Hk' Nk. rewrite nth_upd by lia. destruct (Nat.eqb_spec k 9); [lia|]. destruct (Hinfo p Hp) as (L0 & _). rewrite wrl_ok in E1 by lia. inversion E1 as [E2]. rewrite nth_upd by lia. destruct (Nat.eqb_spec k (Z.to_nat (c_bnd c))); auto; lia.
  Qed.
  Definition gi2 : list Z := concat (map inf2 (ranks n)).
  Lemma gi2_at : forall j k, on n j -> 0 <= k < 10 -> rdl gi2 (10 * j + k) = Ok (nth (Z.to_nat k) (inf2 j) 0).
  Proof. intros j k Hj Hkk. unfold gi2, n. rewrite (rdl_gather N inf2 10); auto. intros p Hp. apply inf2_ok; auto. Qed.

  Definition ovl2 : list Z := lor_all (n * mx) (map ovl1 (ranks n)).
  Lemma index_eq : forall j t p i, 0 <= j -> 0 <= p -> 0 <= t < mx -> 0 <= i < mx -> Z.to_nat (mx * j + t) = Z.to_nat (p * mx + i) -> j = p /\ t = i.
  Proof. intros j t p i H1 H2 H3 H4 E. assert (E' : mx * j + t = mx * p + i) by nia. assert (j = p) by nia. nia. Qed.
  Lemma low_range : forall q i j t, on n q -> 0 <= i < nb q -> low q (at_ q i) = Some (j, t) -> 0 <= j < q /\ 0 <= t < nb j /\ nb j <= mx.
  Proof. intros q i j t Hq Hi E. assert (In (at_ q i) (cand q)) by (apply bl_in; auto; apply at_in; auto). pose proof (low_spec q _ Hq H) as L. rewrite E in L. destruct L as (L1 & (L2 & _ & L3 & _) & _). split; auto. split; auto. apply mx_ok; auto. Qed.
  Lemma ovl2_ok : forall p i, on n p -> 0 <= i < nb p -> exists b, rdl ovl2 (p * mx + i) = Ok b /\ (b <> 0 <-> exists q k, on n q /\ 0 <= k < nb q /\ low q (at_ q k) = Some (p, i)).
  Proof.
    intros p i Hp Hi. assert (NM := proj2 (proj2 mx_ok) p Hp). assert (Hp' := Hp). unfold on in Hp'. assert (LN : length ovl2 = Z.to_nat (n * mx)) by (unfold ovl2, lor_all; rewrite map_length, seq_length; auto).
    assert (IX : (Z.to_nat (p * mx + i) < Z.to_nat (n * mx))%nat) by nia. rewrite rdl_ok by nia. eexists. split; [reflexivity|].
    assert (E : nth (Z.to_nat (p * mx + i)) ovl2 0 = b2z (existsb (fun x => negb (nth (Z.to_nat (p * mx + i)) x 0 =? 0)) (map ovl1 (ranks n)))).
    { unfold ovl2, lor_all. set (f := fun i => b2z (existsb (fun x => negb (nth i x 0 =? 0)) (map ovl1 (ranks n)))). rewrite (nth_indep _ 0 (f 0%nat)) by (rewrite map_length, seq_length; auto). rewrite (map_nth f), seq_nth by auto. auto. }
    rewrite E. split.
    - intros H. destruct (existsb _ _) eqn:X; [|cbn in H; lia]. apply existsb_exists in X. destruct X as (o & Ho & Hx). apply in_map_ranks in Ho. destruct Ho as (q & Hq & <-). destruct (s1_ok q Hq) as (_ & _ & _ & _ & Q & _). destruct (Q (Z.to_nat (p * mx + i))) as (k & j & t & K1 & K2 & K3). lia.
      destruct (low_range q k j t Hq K1 K2) as (R1 & R2 & R3). destruct (index_eq j t p i) as (-> & ->); try lia. eauto.
    - intros (q & k & Hq & K1 & K2). destruct (s1_ok q Hq) as (_ & _ & Q & _). destruct (Q k p i K1 K2) as (_ & _ & _ & Q4). replace (existsb _ _) with true. cbn; lia. symmetry. apply existsb_exists. exists (ovl1 q). split. apply in_map_ranks. eauto. replace (p * mx + i) with (mx * p + i) by lia. lia.
  Qed.
  Lemma labelled_owned : forall p i, on n p -> 0 <= i < nb p -> (exists q k, on n q /\ 0 <= k < nb q /\ low q (at_ q k) = Some (p, i)) -> ghostb p (at_ p i) = false.
  Proof. intros p i Hp Hi (q & k & Hq & K1 & K2). apply (low_owned q (at_ q k) p i); auto. apply bl_in; auto. apply at_in; auto. Qed.

  (** ** Numbering *)
  Hypothesis Hall : forall p, on n p -> NoDup (all p) /\ incl (cand p) (all p).
  Hypothesis Hpt : forall p e, on n p -> In e (all p) -> g_pt (es p) e <> PGHOST.
  Hypothesis Hid : forall p e, on n p -> In e (all p) -> 0 <= g_id (es p) e.
  Hypothesis Hsum : psum (fun q => ZL (all q)) (ranks n) < 2 ^ 31 - 1.

  Definition own (p : Z) : list ptr := filter (fun e => negb (ghostb p e)) (all p).
  Lemma ghostb_cand : forall p e, ghostb p e = true -> In e (cand p).
  Proof. intros p e H. unfold ghostb in H. destruct (in_dec Z.eq_dec e (cand p)); auto. discriminate. Qed.
  Lemma own_len : forall p, on n p -> ZL (own p) = ZL (all p) - ng p.
  Proof.
    intros p Hp. destruct (s1_ok p Hp) as (_ & _ & _ & _ & _ & E & _). rewrite E. destruct (Hall p Hp) as (ND & IN).
    assert (P : Permutation (filter (ghostb p) (bl p)) (filter (ghostb p) (all p))).
    { apply NoDup_Permutation. apply NoDup_filter, bl_nd; auto. apply NoDup_filter; auto. intros x. rewrite !filter_In, bl_in by auto. split; intros (H1 & H2); split; auto. apply ghostb_cand; auto. }
    apply Permutation_length in P. rewrite P. unfold own, ZL. clear. induction (all p) as [|x l IH]; cbn [filter]; auto. destruct (ghostb p x); cbn [negb length]; lia.
  Qed.
  Definition below (p : Z) : Z := psum (fun q => ZL (own q)) (zrange 0 p).
  Lemma zrange_ranks : zrange 0 n = ranks n.
  Proof. unfold zrange, ranks. rewrite Z.sub_0_r. apply map_ext. intros. lia. Qed.
  Lemma below_all : forall p, on n p -> 0 <= below p /\ below p + ZL (all p) < 2 ^ 31 - 1.
  Proof.
    intros p Hp. unfold on in Hp. rewrite <- zrange_ranks, (zrange_app 0 p n), psum_app in Hsum by lia. rewrite (zrange_cons p n) in Hsum by lia. cbn [psum] in Hsum.
    assert (A : below p <= psum (fun q => ZL (all q)) (zrange 0 p)). { apply psum_le. intros q _. unfold own, ZL. pose proof (flen_le _ (fun e => negb (ghostb q e)) (all q)). lia. }
    assert (B : 0 <= psum (fun q => ZL (all q)) (zrange (p + 1) n)) by (apply psum_nonneg; intros; unfold ZL; lia).
    split. apply psum_nonneg. intros; unfold ZL; lia. lia.
  Qed.
  Lemma start_ok : forall p, on n p -> start_id c p gi2 = Ok (1 + below p).
  Proof.
    intros p Hp. unfold start_id. destruct (foldM_up _ (fun k g => g = 1 + below k) (fun g i => x <- rdl gi2 (10 * i + c_num c) ;; y <- rdl gi2 (10 * i + 9) ;; s <- ck32 (g + x) ;; ck32 (s - y)) 0 p 1) as (g & E & ->).
    - unfold on in Hp; lia.
    - unfold below. rewrite zrange_nil by lia. auto.
    - intros k g Hkk ->. assert (Hq : on n k) by (unfold on in *; lia). destruct (inf2_ok k Hq) as (_ & _ & E9 & En & _). rewrite !gi2_at by (auto; lia). cbn [bind]. change (Z.to_nat 9) with 9%nat. rewrite E9, En. destruct (below_all k Hq) as (B1 & B2). pose proof (own_len k Hq) as OL. unfold ZL in OL, B2 |- *.
      assert (NG : 0 <= ng k) by (destruct (s1_ok k Hq) as (_ & _ & _ & _ & _ & Eg & _); lia).
      unfold ck32. replace ((- 2 ^ 31 <=? 1 + below k + Z.of_nat (length (all k))) && (1 + below k + Z.of_nat (length (all k)) <? 2 ^ 31)) with true by lia. cbn [bind]. replace ((- 2 ^ 31 <=? 1 + below k + Z.of_nat (length (all k)) - ng k) && (1 + below k + Z.of_nat (length (all k)) - ng k <? 2 ^ 31)) with true by lia. eexists. split; [reflexivity|]. unfold below. rewrite zrange_snoc, psum_app by lia. cbn [psum]. unfold ZL. lia.
    - exact E.
  Qed.
  Definition newb (p : Z) (e : ptr) : bool := negb (ghostb p e) && (g_id (es p) e =? 0).
  Definition numbered (p : Z) (l : list ptr) (s : gents * Z) : Prop :=
    snd s = 1 + below p + ZL (filter (newb p) l) /\ g_pt (fst s) = g_pt (s1 p) /\ g_bd (fst s) = g_bd (s1 p) /\
    (forall e, ~ In e l \/ ghostb p e = true -> g_id (fst s) e = g_id (es p) e /\ g_mas (fst s) e = g_mas (s1 p) e) /\
    (forall a e b, l = a ++ e :: b -> ghostb p e = false -> g_id (fst s) e = (if g_id (es p) e =? 0 then 1 + below p + ZL (filter (newb p) a) else g_id (es p) e) /\ g_mas (fst s) e = p).
  Lemma ghost_pt : forall p e, on n p -> In e (all p) -> (g_pt (s1 p) e =? PGHOST) = ghostb p e.
  Proof.
    intros p e Hp Hin. destruct (s1_ok p Hp) as (_ & A & B & _). destruct (ghostb p e) eqn:G.
    - pose proof (ghostb_cand p e G) as Hc. apply bl_in in Hc; auto. destruct (at_ex p e Hc) as (i & Hi & <-). unfold ghostb in G. destruct (in_dec _ _ _); [|discriminate]. destruct (low p (at_ p i)) as [(j, t)|] eqn:L; [|discriminate]. destruct (B i j t Hi L) as (Q & _). rewrite Q. auto.
    - destruct (A e G) as (Q & _). rewrite Q. pose proof (Hpt p e Hp Hin). apply Z.eqb_neq. auto.
  Qed.
  Lemma number_ok : forall p, on n p -> exists s, foldM (number1 p) (s1 p, 1 + below p) (all p) = Ok s /\ numbered p (all p) s.
  Proof.
    intros p Hp. destruct (Hall p Hp) as (ND & IN). destruct (s1_ok p Hp) as (A0 & _). apply foldM_list.
    - split. cbn [snd filter]. unfold ZL; cbn [length]; lia. split; auto. split; auto. split. intros e _. cbn [fst]. rewrite A0. auto. intros a e b E. destruct a; discriminate.
    - intros pre x suf (s, g) E (I1 & I2 & I3 & I4 & I5). cbn [fst snd] in *. assert (Hx : In x (all p)) by (rewrite E; apply in_or_app; right; cbn; auto).
      assert (Nx : ~ In x pre). { intro H. rewrite E in ND. apply NoDup_remove_2 in ND. apply ND, in_or_app. auto. }
      assert (LAST : forall a e b, pre ++ [x] = a ++ e :: b -> (b = [] /\ a = pre /\ e = x) \/ exists b', pre = a ++ e :: b').
      { intros a e b Eq. destruct (exists_last (l := e :: b)) as (b' & z & Eb). discriminate. rewrite Eb in Eq. rewrite app_assoc in Eq. apply app_inj_tail in Eq. destruct Eq as (Eq & <-). destruct b' as [|e' b']. cbn in Eb. inversion Eb; subst. left. rewrite app_nil_r. auto. right. cbn in Eb. inversion Eb; subst. eauto. }
      unfold number1. cbn [fst snd]. rewrite I2, (ghost_pt p x Hp Hx). destruct (ghostb p x) eqn:G.
      + exists (s, g). split; auto. split. cbn [snd]. rewrite filter_app. cbn [filter]. unfold newb at 2. rewrite G. cbn [negb andb]. rewrite app_nil_r. auto. split; auto. split; auto. cbn [fst]. split.
        { intros e [H|H]; apply I4; auto. left. intro. apply H, in_or_app. auto. }
        { intros a e b Eq Ge. destruct (LAST a e b Eq) as [(_ & _ & ->)|(b' & Eb)]. congruence. apply (I5 a e b'); auto. }
      + destruct (I4 x (or_introl Nx)) as (Ix & _). rewrite Ix. destruct (below_all p Hp) as (B1 & B2).
        assert (BG : g <= 1 + below p + ZL (all p) - 1). { rewrite I1. unfold ZL. rewrite E, app_length. cbn [length]. pose proof (flen_le _ (newb p) pre). lia. }
        destruct (Z.eqb_spec (g_id (es p) x) 0) as [Z0|Z0].
        * unfold ck32. replace ((- 2 ^ 31 <=? g + 1) && (g + 1 <? 2 ^ 31)) with true by (unfold ZL in *; lia). cbn [bind]. eexists. split; [reflexivity|]. split. { cbn [snd]. rewrite filter_app. cbn [filter]. unfold newb at 2. rewrite G, Z0. cbn [negb andb Z.eqb]. unfold ZL in *. rewrite app_length. cbn [length]. lia. }
          split; auto. split; auto. cbn [fst set_mas set_gid g_id g_mas]. split.
          { intros e H. assert (Ne : e <> x). { intros ->. destruct H as [H|H]; [|congruence]. apply H, in_or_app. cbn; auto. } rewrite !zupd_other by auto. apply I4. destruct H as [H|H]; auto. left. intro. apply H, in_or_app. auto. }
          { intros a e b Eq Ge. destruct (LAST a e b Eq) as [(_ & -> & ->)|(b' & Eb)]. rewrite !zupd_same. rewrite Z0. cbn [Z.eqb]. rewrite I1. auto.
            assert (Ne : e <> x). { intros ->. apply Nx. rewrite Eb. apply in_or_app. cbn; auto. } rewrite !zupd_other by auto. apply (I5 a e b'); auto. }
        * cbn [bind]. eexists. split; [reflexivity|]. split. { cbn [snd]. rewrite filter_app. cbn [filter]. unfold newb at 2. rewrite G. replace (g_id (es p) x =? 0) with false by lia. cbn [negb andb]. rewrite app_nil_r. auto. }
          split; auto. split; auto. cbn [fst set_mas g_id g_mas]. split.
          { intros e H. assert (Ne : e <> x). { intros ->. destruct H as [H|H]; [|congruence]. apply H, in_or_app. cbn; auto. } rewrite !zupd_other by auto. apply I4. destruct H as [H|H]; auto. left. intro. apply H, in_or_app. auto. }
          { intros a e b Eq Ge. destruct (LAST a e b Eq) as [(_ & -> & ->)|(b' & Eb)]. rewrite !zupd_same. replace (g_id (es p) x =? 0) with false by lia. auto.
            assert (Ne : e <> x). { intros ->. apply Nx. rewrite Eb. apply in_or_app. cbn; auto. } rewrite !zupd_other by auto. apply (I5 a e b'); auto. }
  Qed.
  Definition s2 (p : Z) : gents * Z := un (s1 p, 0) (foldM (number1 p) (s1 p, 1 + below p) (all p)).
  Lemma s2_ok : forall p, on n p -> foldM (number1 p) (s1 p, 1 + below p) (all p) = Ok (s2 p) /\ numbered p (all p) (s2 p).
  Proof. intros p Hp. destruct (number_ok p Hp) as (s & E & H). unfold s2. rewrite E. auto. Qed.
  Lemma s2_pos : forall p e, on n p -> In e (all p) -> ghostb p e = false -> 0 <= g_id (fst (s2 p)) e.
  Proof.
    intros p e Hp Hin G. destruct (s2_ok p Hp) as (_ & _ & _ & _ & _ & H). destruct (in_split _ _ Hin) as (a & b & E). destruct (H a e b E G) as (Q & _). rewrite Q. destruct (below_all p Hp). pose proof (Hid p e Hp Hin). destruct (g_id (es p) e =? 0); unfold ZL; lia.
  Qed.

  (** ** Overlap *)
  Definition labelled (p i : Z) : Prop := exists q k, on n q /\ 0 <= k < nb q /\ low q (at_ q k) = Some (p, i).
  Definition over (p k : Z) (s : gents * list Z) : Prop :=
    g_id (fst s) = g_id (fst (s2 p)) /\ g_mas (fst s) = g_mas (fst (s2 p)) /\ g_bd (fst s) = g_bd (fst (s2 p)) /\
    (forall i, 0 <= i < k -> labelled p i -> g_pt (fst s) (at_ p i) = POVERLAP) /\
    (forall e, (forall i, 0 <= i < k -> labelled p i -> at_ p i <> e) -> g_pt (fst s) e = g_pt (fst (s2 p)) e) /\
    length (snd s) = Z.to_nat (n * mx) /\
    (forall i, 0 <= i < k -> labelled p i -> nth (Z.to_nat (p * mx + i)) (snd s) 0 = g_id (fst (s2 p)) (at_ p i)) /\
    (forall x, (forall i, 0 <= i < k -> x <> Z.to_nat (p * mx + i)) -> nth x (snd s) 0 = 0).
  Lemma nth_repeat0 : forall k j, nth j (repeat 0 k) 0 = 0.
  Proof. induction k as [|k IH]; intros [|j]; cbn; auto. Qed.
  Lemma over_ok : forall p, on n p -> exists s, foldM (overlap1 mx p ovl2 (bl p)) (fst (s2 p), repeat 0 (Z.to_nat (n * mx))) (zrange 0 (nb p)) = Ok s /\ over p (nb p) s.
  Proof.
    intros p Hp. pose proof (proj2 (proj2 mx_ok) p Hp) as NM. pose proof (proj1 (proj2 mx_ok)) as M0. apply foldM_up. unfold nb, ZL; lia.
    - split; auto. split; auto. split; auto. split. intros; lia. split; auto. split. apply repeat_length. split. intros; lia. intros x _. cbn [snd]. apply nth_repeat0.
    - intros k (s, pub) Hkk (I1 & I2 & I3 & I4 & I5 & I6 & I7 & I8). cbn [fst snd] in *. unfold overlap1. cbn [fst snd]. destruct (ovl2_ok p k Hp Hkk) as (b & E & HB). rewrite E. cbn [bind]. fold (labelled p k) in HB. unfold on in Hp. destruct (Z.eqb_spec b 0) as [Eb|Eb].
      + assert (NL : ~ labelled p k) by (rewrite <- HB; lia). eexists. split; [reflexivity|]. split; auto. split; auto. split; auto. cbn [fst snd]. split. { intros i Hi L. destruct (Z.eq_dec i k) as [->|]. contradiction. apply I4; auto; lia. }
        split. { intros e He'. apply I5. intros i Hi. apply He'. lia. } split; auto. split. { intros i Hi L. destruct (Z.eq_dec i k) as [->|]. contradiction. apply I7; auto; lia. } intros x Hx. apply I8. intros i Hi. apply Hx. lia.
      + apply HB in Eb. rewrite lent_ok by lia. cbn [bind]. fold (at_ p k). rewrite wrl_ok by nia. cbn [bind]. eexists. split; [reflexivity|]. split; auto. split; auto. split; auto. cbn [fst snd set_pt g_pt]. split.
        { intros i Hi L. unfold zupd. destruct (Z.eqb_spec (at_ p i) (at_ p k)); auto. apply I4; auto. assert (i <> k) by (intros ->; contradiction). lia. }
        split. { intros e He'. rewrite zupd_other. apply I5. intros i Hi. apply He'. lia. intro X. apply (He' k); auto. lia. }
        split. rewrite upd_nth_length. auto. split.
        { intros i Hi L. rewrite nth_upd by nia. destruct (Nat.eqb_spec (Z.to_nat (p * mx + i)) (Z.to_nat (p * mx + k))) as [X|X]. assert (i = k) by nia. subst i. rewrite I1. auto. apply I7; auto. assert (i <> k) by (intros ->; contradiction). lia. }
        { intros x Hx. rewrite nth_upd by nia. destruct (Nat.eqb_spec x (Z.to_nat (p * mx + k))) as [X|X]. exfalso. apply (Hx k); auto. lia. apply I8. intros i Hi. apply Hx. lia. }
  Qed.
  Definition s3 (p : Z) : gents * list Z := un (fst (s2 p), []) (foldM (overlap1 mx p ovl2 (bl p)) (fst (s2 p), repeat 0 (Z.to_nat (n * mx))) (zrange 0 (nb p))).
  Lemma s3_ok : forall p, on n p -> foldM (overlap1 mx p ovl2 (bl p)) (fst (s2 p), repeat 0 (Z.to_nat (n * mx))) (zrange 0 (nb p)) = Ok (s3 p) /\ over p (nb p) (s3 p).
  Proof. intros p Hp. destruct (over_ok p Hp) as (s & E & H). unfold s3. rewrite E. auto. Qed.

  (** ** The table of IDs *)
  Definition lst2 (p : Z) : list Z := un [] (pack_ids mx (junk p) (lst p) (bl p) (fst (s3 p))).
  Lemma lst2_ok : forall p, on n p -> pack_ids mx (junk p) (lst p) (bl p) (fst (s3 p)) = Ok (lst2 p) /\ Z.of_nat (length (lst2 p)) = mx /\ forall i, 0 <= i < nb p -> nth (Z.to_nat i) (lst2 p) 0 = g_id (fst (s2 p)) (at_ p i).
  Proof.
    intros p Hp. pose proof (proj2 (proj2 mx_ok) p Hp) as NM. pose proof (proj1 (proj2 mx_ok)) as M0. destruct (lst_ok p Hp) as (_ & L & _). unfold pack_ids.
    destruct (put_ok (lst p) 0 (map (g_id (fst (s3 p))) (bl p))) as (a & E & La & (_ & _ & H) & _). lia. rewrite map_length. unfold nb, ZL in NM. nia.
    unfold lst2, pack_ids. rewrite E. cbn [bind un]. split; auto. split. rewrite firstn_length, fill_length. nia. intros i Hi. unfold nb, ZL in *.
    assert (X : forall m (l : list Z) j, (j < m)%nat -> nth j (firstn m l) 0 = nth j l 0). { induction m as [|m IH]; intros l j Hj. lia. destruct l; cbn [firstn]; auto. destruct j; cbn [nth]; auto. apply IH. lia. }
    rewrite X by lia. rewrite fill_nth by nia. specialize (H (Z.to_nat i)). rewrite map_length in H. replace (Z.to_nat 0 + Z.to_nat i)%nat with (Z.to_nat i) in H by lia. rewrite H by lia. destruct (s3_ok p Hp) as (_ & Q & _). rewrite Q. rewrite (nth_indep _ 0 (g_id (fst (s2 p)) 0)) by (rewrite map_length; lia). rewrite map_nth. auto.
  Qed.
  Definition pubs (p : Z) : list Z := if c_max c then snd (s3 p) else lst2 p.
  Definition tab : list Z := if c_max c then max_all (n * mx) (map pubs (ranks n)) else concat (map pubs (ranks n)).
  Lemma fold_max : forall l y, (forall x, In x l -> 0 <= x) -> 0 <= y -> forall m, (forall x, In x (y :: l) -> x <= m) -> In m (y :: l) -> fold_left Z.max l y = m.
  Proof.
    induction l as [|a l IH]; intros y Hl Hy m Hm Hin; cbn [fold_left]. destruct Hin as [->|[]]; auto. apply IH. intros; apply Hl; cbn; auto. lia.
    intros x [<-|Hx]. assert (y <= m) by (apply Hm; cbn; auto). assert (a <= m) by (apply Hm; cbn; auto). lia. apply Hm; cbn; auto.
    assert (y <= m) by (apply Hm; cbn; auto). assert (a <= m) by (apply Hm; cbn; auto). destruct Hin as [->|[->|Hin]]; [left; lia|left; lia|right; auto].
  Qed.
  Lemma tab_ok : forall p i, on n p -> 0 <= i < nb p -> labelled p i -> rdl tab (p * mx + i) = Ok (g_id (fst (s2 p)) (at_ p i)).
  Proof.
    intros p i Hp Hi L. pose proof (proj2 (proj2 mx_ok) p Hp) as NM. pose proof (proj1 (proj2 mx_ok)) as M0. assert (Hp' := Hp). unfold on in Hp'. unfold tab. destruct (c_max c) eqn:CM.
    - assert (LN : length (max_all (n * mx) (map pubs (ranks n))) = Z.to_nat (n * mx)) by (unfold max_all; rewrite map_length, seq_length; auto). rewrite rdl_ok by nia. f_equal. unfold max_all.
      set (f := fun i => match map (fun x => nth i x 0) (map pubs (ranks n)) with [] => 0 | y :: t => fold_left Z.max t y end). rewrite (nth_indep _ 0 (f 0%nat)) by (rewrite map_length, seq_length; nia). rewrite (map_nth f), seq_nth by nia. cbn [Nat.add]. unfold f. rewrite map_map. set (x := Z.to_nat (p * mx + i)).
      assert (V : forall q, on n q -> nth x (pubs q) 0 = if q =? p then g_id (fst (s2 p)) (at_ p i) else 0).
      { intros q Hq. unfold pubs. rewrite CM. destruct (s3_ok q Hq) as (_ & O). destruct O as (_ & _ & _ & _ & _ & _ & O7 & O8). destruct (Z.eqb_spec q p) as [E|E]. subst q. apply O7; auto. apply O8. intros k Hkk X. pose proof (proj2 (proj2 mx_ok) q Hq). unfold on in Hq. unfold x in X. replace (q * mx) with (mx * q) in X by lia. symmetry in X. destruct (index_eq q k p i) as (X1 & _); try lia. }
      assert (P0 : 0 <= g_id (fst (s2 p)) (at_ p i)). { apply s2_pos; auto. apply (Hall p Hp). apply bl_in; auto. apply at_in; auto. apply labelled_owned; auto. }
      assert (IM : In (g_id (fst (s2 p)) (at_ p i)) (map (fun x0 => nth x (pubs x0) 0) (ranks n))). { apply in_map_ranks. exists p. split; auto. rewrite V, Z.eqb_refl by auto. auto. }
      assert (BD : forall y, In y (map (fun x0 => nth x (pubs x0) 0) (ranks n)) -> 0 <= y <= g_id (fst (s2 p)) (at_ p i)). { intros y Hy. apply in_map_ranks in Hy. destruct Hy as (q & Hq & <-). rewrite V by auto. destruct (q =? p); lia. }
      destruct (map (fun x0 => nth x (pubs x0) 0) (ranks n)) as [|y t]. destruct IM. apply fold_max; auto. intros z Hz. apply BD. cbn; auto. apply BD; cbn; auto. intros z Hz. apply BD; auto.
    - replace (p * mx + i) with (mx * p + i) by lia. unfold n. rewrite (rdl_gather N pubs mx); auto; [|intros q Hq; unfold pubs; rewrite CM; apply lst2_ok; auto|lia]. unfold pubs. rewrite CM. f_equal. apply lst2_ok; auto.
  Qed.

  (** ** Ghosts *)
  Definition done (p k : Z) (s : gents) : Prop :=
    g_pt s = g_pt (fst (s3 p)) /\ g_mas s = g_mas (fst (s3 p)) /\ g_bd s = g_bd (fst (s3 p)) /\
    (forall i j t, 0 <= i < k -> low p (at_ p i) = Some (j, t) -> g_id s (at_ p i) = g_id (fst (s2 j)) (at_ j t)) /\
    (forall e, (forall i, 0 <= i < k -> at_ p i = e -> ghostb p e = false) -> g_id s e = g_id (fst (s2 p)) e).
  Lemma s3_pt : forall p e, on n p -> In e (all p) -> (g_pt (fst (s3 p)) e =? PGHOST) = ghostb p e.
  Proof.
    intros p e Hp Hin. destruct (s3_ok p Hp) as (_ & _ & _ & _ & O4 & O5 & _). destruct (s2_ok p Hp) as (_ & _ & N2 & _).
    assert (D1 : (exists i, 0 <= i < nb p /\ labelled p i /\ at_ p i = e) \/ forall i, 0 <= i < nb p -> labelled p i -> at_ p i <> e).
    { destruct (in_dec Z.eq_dec e (bl p)) as [I|I]. 2: { right. intros i Hi _ <-. apply I, at_in; auto. } destruct (at_ex p e I) as (i & Hi & E). destruct (ovl2_ok p i Hp Hi) as (b & _ & HB). destruct (Z.eq_dec b 0) as [B|B].
      right. intros i' Hi' L' E'. assert (i' = i) by (apply (at_inj p); auto; congruence). subst i'. apply HB in L'. lia. left. exists i. split; auto. split; auto. apply HB; auto. }
    destruct D1 as [(i & Hi & L & <-)|D1].
    - rewrite O4 by auto. rewrite (labelled_owned p i); auto.
    - rewrite O5 by auto. rewrite N2. apply ghost_pt; auto.
  Qed.
  Lemma done_ok : forall p, on n p -> exists s, foldM (ghost1 mx tab (idon p) (bl p)) (fst (s3 p)) (zrange 0 (nb p)) = Ok s /\ done p (nb p) s.
  Proof.
    intros p Hp. destruct (s3_ok p Hp) as (_ & O1 & O2 & O3 & O4 & O5 & _). destruct (s2_ok p Hp) as (_ & _ & N2 & N3 & N4 & N5). apply foldM_up. unfold nb, ZL; lia.
    - split; auto. split; auto. split; auto. split. intros; lia. intros e _. rewrite O1. auto.
    - intros k s Hkk (I1 & I2 & I3 & I4 & I5). unfold ghost1. rewrite lent_ok by lia. cbn [bind]. fold (at_ p k). assert (Hb : In (at_ p k) (bl p)) by (apply at_in; auto). assert (Hc : In (at_ p k) (cand p)) by (apply bl_in; auto). assert (Ha : In (at_ p k) (all p)) by (apply (Hall p Hp); auto).
      rewrite I1, s3_pt by auto. destruct (ghostb p (at_ p k)) eqn:G.
      + unfold ghostb in G. destruct (in_dec _ _ _) as [Hin'|]; [|discriminate]. destruct (low p (at_ p k)) as [(j, t)|] eqn:L; [|discriminate]. destruct (s1_ok p Hp) as (_ & _ & Q & _). destruct (Q k j t Hkk L) as (_ & Q2 & Q3 & _). rewrite Q3. cbn [bind].
        assert (GH : ghostb p (at_ p k) = true) by (unfold ghostb; destruct (in_dec Z.eq_dec (at_ p k) (cand p)); [rewrite L; auto|contradiction]).
        rewrite I2, O2. destruct (N4 (at_ p k) (or_intror GH)) as (_ & N4m). rewrite N4m, Q2. destruct (low_range p k j t Hp Hkk L) as (R1 & R2 & R3). assert (Hj : on n j) by (unfold on in *; lia).
        rewrite tab_ok; auto. 2: { exists p, k. auto. } cbn [bind]. eexists. split; [reflexivity|]. split; auto. split; auto. split; auto. cbn [set_gid g_id]. split.
        { intros i j' t' Hi L'. destruct (Z.eq_dec i k) as [->|Ne]. rewrite zupd_same. rewrite L in L'. inversion L'. auto. rewrite zupd_other. apply I4; auto. lia. intro E. apply at_inj in E; auto; lia. }
        { intros e He'. rewrite zupd_other. apply I5. intros i Hi. apply He'. lia. intros ->. rewrite (He' k) in GH; auto. discriminate. lia. }
      + exists s. split; auto. split; auto. split; auto. split; auto. split. { intros i j t Hi L. destruct (Z.eq_dec i k) as [->|Ne]. exfalso. unfold ghostb in G. destruct (in_dec _ _ _); [|contradiction]. rewrite L in G. discriminate. apply I4; auto. lia. } intros e He'. apply I5. intros i Hi. apply He'. lia.
  Qed.
  Definition s4 (p : Z) : gents := un (fst (s3 p)) (foldM (ghost1 mx tab (idon p) (bl p)) (fst (s3 p)) (zrange 0 (nb p))).
  Lemma s4_ok : forall p, on n p -> foldM (ghost1 mx tab (idon p) (bl p)) (fst (s3 p)) (zrange 0 (nb p)) = Ok (s4 p) /\ done p (nb p) (s4 p).
  Proof. intros p Hp. destruct (done_ok p Hp) as (s & E & H). unfold s4. rewrite E. auto. Qed.

  (** ** All together *)
  Lemma match_protocol : forall lo, protocol n lo (lo + 6) (fun p => match_ids c (junk p) n p (info p) (id p) (all p) (cand p) (keyM p) kcmp (ecmp p) (es p)) (fun p => (s4 p, gi2)).
  Proof.
    intros lo. unfold match_ids. apply protocol_lift with (v := bl). { intros p Hp. apply bl_ok; auto. }
    apply protocol_lift with (v := inf1). { intros p Hp. apply inf1_ok; auto. }
    apply protocol_col. lia. cbv zeta. fold gi1. apply protocol_lift with (v := fun _ => mx). { intros p Hp. apply mx_ok. }
    apply protocol_lift with (v := lst). { intros p Hp. apply lst_ok; auto. }
    assert (GO : forall lo hi, lo + 4 <= hi -> protocol n lo hi (fun p => Col (fill (junk p) (lst p)) (fun recvs =>
        '(es, ovl, idon, ng) <! search c mx n p gi1 (concat recvs) (bl p) (keyM p) kcmp (es p) ;;
        info <! wrl (inf1 p) 9 ng ;;
        Col info (fun gis =>
          Col ovl (fun ovls =>
            let ovl := lor_all (n * mx) ovls in
            g <! start_id c p (concat gis) ;;
            '(es, _) <! foldM (number1 p) (es, g) (all p) ;;
            '(es, pub) <! foldM (overlap1 mx p ovl (bl p)) (es, repeat 0 (Z.to_nat (n * mx))) (zrange 0 (ZL (bl p))) ;;
            lst <! pack_ids mx (junk p) (lst p) (bl p) es ;;
            Col (if c_max c then pub else lst) (fun tabs =>
              let tab := if c_max c then max_all (n * mx) tabs else concat tabs in
              es <! foldM (ghost1 mx tab idon (bl p)) es (zrange 0 (ZL (bl p))) ;;
              Ret (es, concat gis)))))) (fun p => (s4 p, gi2))).
    { clear lo. intros lo hi Hlo. eapply protocol_col with (x := sent). lia. change (concat (map sent (ranks n))) with recv. 
      apply protocol_lift with (v := fun p => (s1 p, ovl1 p, idon p, ng p)). { intros p Hp. rewrite <- srch_eq. apply srch_ok; auto. }
      cbv beta iota. apply protocol_lift with (v := inf2). { intros p Hp. apply inf2_ok; auto. }
      apply protocol_col. lia. fold gi2. apply protocol_col. lia. cbv zeta. fold ovl2. apply protocol_lift with (v := fun p => 1 + below p). { intros p Hp. apply start_ok; auto. }
      apply protocol_lift with (v := s2). { intros p Hp. apply s2_ok; auto. } 
      apply protocol_ext with (qs := fun p => '(es, pub) <! foldM (overlap1 mx p ovl2 (bl p)) (fst (s2 p), repeat 0 (Z.to_nat (n * mx))) (zrange 0 (ZL (bl p))) ;;
            lst <! pack_ids mx (junk p) (lst p) (bl p) es ;;
            Col (if c_max c then pub else lst) (fun tabs =>
              let tab := if c_max c then max_all (n * mx) tabs else concat tabs in
              es <! foldM (ghost1 mx tab (idon p) (bl p)) es (zrange 0 (ZL (bl p))) ;;
              Ret (es, gi2))). { intros p Hp. destruct (s2 p) as (a, b). reflexivity. }
      apply protocol_lift with (v := s3). { intros p Hp. apply s3_ok; auto. }
      apply protocol_ext with (qs := fun p => let es := fst (s3 p) in let pub := snd (s3 p) in lst <! pack_ids mx (junk p) (lst p) (bl p) es ;;
            Col (if c_max c then pub else lst) (fun tabs =>
              let tab := if c_max c then max_all (n * mx) tabs else concat tabs in
              es <! foldM (ghost1 mx tab (idon p) (bl p)) es (zrange 0 (ZL (bl p))) ;;
              Ret (es, gi2))). { intros p Hp. destruct (s3 p) as (a, b). reflexivity. }
      cbv zeta. apply protocol_lift with (v := lst2). { intros p Hp. apply lst2_ok; auto. }
      eapply protocol_col with (x := pubs). lia. change (if c_max c then max_all (n * mx) (map pubs (ranks n)) else concat (map pubs (ranks n))) with tab.
      apply protocol_lift with (v := s4). { intros p Hp. apply s4_ok; auto. } apply protocol_ret. }
    destruct (c_ids c).
    - apply protocol_col. lia. apply GO. lia.
    - apply GO. lia.
  Qed.

  (** ** The result *)
  Definition twins (p : Z) (e : ptr) (q : Z) (e' : ptr) : Prop := In e (cand p) /\ In e' (cand q) /\ Sm (key p e) (key q e').
  Lemma s4_pt : forall p e, on n p -> In e (all p) -> (g_pt (s4 p) e =? PGHOST) = ghostb p e.
  Proof. intros p e Hp Hin. destruct (s4_ok p Hp) as (_ & D1 & _). rewrite D1. apply s3_pt; auto. Qed.
  Lemma s4_owned : forall p l, on n p -> incl l (all p) -> owned l (s4 p) = filter (fun e => negb (ghostb p e)) l.
  Proof. intros p l Hp. induction l as [|x l IH]; intros I; auto. unfold owned in *. cbn [filter]. rewrite s4_pt by (auto; apply I; cbn; auto). rewrite IH by (intros y Hy; apply I; cbn; auto). auto. Qed.
  Lemma s4_below : forall p, on n p -> owned_below all s4 p = below p.
  Proof.
    intros p Hp. unfold owned_below, below. assert (E : forall l, (forall q, In q l -> on n q) -> psum (fun q => ZL (owned (all q) (s4 q))) l = psum (fun q => ZL (own q)) l).
    { induction l as [|x l IH]; intros H; cbn [psum]; auto. rewrite IH by (intros; apply H; cbn; auto). rewrite s4_owned. auto. apply H; cbn; auto. apply incl_refl. }
    apply E. intros q Hq. apply zrange_in in Hq. unfold on in *. lia.
  Qed.
  Lemma s4_gid : forall p e, on n p -> In e (all p) -> ghostb p e = false -> g_id (s4 p) e = g_id (fst (s2 p)) e.
  Proof. intros p e Hp Hin G. destruct (s4_ok p Hp) as (_ & _ & _ & _ & _ & H). apply H. auto. Qed.
  Lemma twin_mt : forall p e q e', on n q -> q <> p -> twins p e q e' -> exists i, at_ q i = e' /\ mt p e q i.
  Proof. intros p e q e' Hq Ne (_ & B & S0). apply bl_in in B; auto. destruct (at_ex q e' B) as (i & Hi & E). exists i. split; auto. split; auto. split; auto. split; auto. rewrite E. auto. Qed.
  Lemma ghost_low : forall p e, ghostb p e = true -> exists q t, low p e = Some (q, t).
  Proof. intros p e H. unfold ghostb in H. destruct (in_dec _ _ _); [|discriminate]. destruct (low p e) as [(q, t)|]; [eauto|discriminate]. Qed.
  Lemma ghost_of_low : forall p e q t, In e (cand p) -> low p e = Some (q, t) -> ghostb p e = true.
  Proof. intros p e q t H E. unfold ghostb. destruct (in_dec _ _ _); [|contradiction]. rewrite E. auto. Qed.

  Lemma match_result : numbering n all twins es s4.
  Proof.
    assert (IN : forall q e, on n q -> In e (cand q) -> In e (all q)) by (intros q e Hq H; apply (Hall q Hq); auto).
    assert (GF : forall p e, on n p -> In e (all p) -> g_pt (s4 p) e <> PGHOST <-> ghostb p e = false).
    { intros p e Hp Hin. rewrite <- (s4_pt p e Hp Hin). split; intros H; [apply Z.eqb_neq|apply Z.eqb_neq]; auto. }
    assert (GT : forall p e, on n p -> In e (all p) -> g_pt (s4 p) e = PGHOST <-> ghostb p e = true).
    { intros p e Hp Hin. rewrite <- (s4_pt p e Hp Hin). split; intros H; apply Z.eqb_eq; auto. }
    constructor.
    - intros p e Hp Hin. rewrite GT by auto. split.
      + intros G. pose proof (ghostb_cand p e G) as Hc. destruct (ghost_low p e G) as (q & t & L). pose proof (low_spec p e Hp Hc) as LS. rewrite L in LS. destruct LS as (Q1 & (M1 & _ & M3 & M4) & _). exists q, (at_ q t). split; auto. assert (In (at_ q t) (cand q)) by (apply bl_in; auto; apply at_in; auto). split; auto. split; auto.
      + intros (q & e' & Hq & _ & T). assert (Hq' : on n q) by (unfold on in *; lia). destruct T as (Tc & T2). destruct (twin_mt p e q e' Hq') as (i & _ & M). lia. split; auto. pose proof (low_spec p e Hp Tc) as LS. destruct (low p e) as [(j, t)|] eqn:L. apply (ghost_of_low p e j t); auto. exfalso. apply (LS q i); auto. lia.
    - intros p e Hp Hin G. apply GT in G; auto. pose proof (ghostb_cand p e G) as Hc. destruct (ghost_low p e G) as (q & t & L). pose proof (low_spec p e Hp Hc) as LS. rewrite L in LS. destruct LS as (Q1 & (M1 & M2 & M3 & M4) & Mn). destruct (low_owned p e q t Hp Hc L) as (_ & _ & Ow). assert (Ct : In (at_ q t) (cand q)) by (apply bl_in; auto; apply at_in; auto).
      assert (B : In e (bl p)) by (apply bl_in; auto). destruct (at_ex p e B) as (i & Hi & Ei).
      exists q, (at_ q t). split; auto. split; auto. split. split; auto. split. { intros q' e'' Hq' _ T. assert (on n q') by (unfold on in *; lia). destruct (twin_mt p e q' e'') as (k & _ & M); auto. lia. apply (Mn q' k); auto. lia. }
      split. { destruct (s4_ok p Hp) as (_ & _ & D2 & _). rewrite D2. destruct (s3_ok p Hp) as (_ & _ & O2 & _). rewrite O2. destruct (s2_ok p Hp) as (_ & _ & _ & _ & N4 & _). destruct (N4 e (or_intror G)) as (_ & N4m). rewrite N4m. destruct (s1_ok p Hp) as (_ & _ & Q & _). rewrite <- Ei in L. destruct (Q i q t Hi L) as (_ & Q2 & _). rewrite <- Ei. auto. }
      split. apply GF; auto. rewrite (s4_gid q) by auto. destruct (s4_ok p Hp) as (_ & _ & _ & _ & D4 & _). rewrite <- Ei in L |- *. apply (D4 i q t); auto.
    - intros p e Hp Hin G. apply GF in G; auto. destruct (s4_ok p Hp) as (_ & _ & D2 & _). rewrite D2. destruct (s3_ok p Hp) as (_ & _ & O2 & _). rewrite O2. destruct (s2_ok p Hp) as (_ & _ & _ & _ & _ & N5). destruct (in_split _ _ Hin) as (a & b & E). apply (N5 a e b); auto.
    - intros p e Hp Hin G (q & e' & Hq & He' & T). apply GF in G; auto. assert (Hq' : on n q) by (unfold on in *; lia). assert (Hp' := Hp). unfold on in Hp'.
      destruct (s4_ok p Hp) as (_ & D1 & _). rewrite D1. destruct (s3_ok p Hp) as (_ & _ & _ & _ & O4 & _). destruct T as (T1 & T2 & T3). assert (B : In e (bl p)) by (apply bl_in; auto). destruct (at_ex p e B) as (i & Hi & Ei). rewrite <- Ei. apply O4; auto.
      assert (Bq : In e' (bl q)) by (apply bl_in; auto). destruct (at_ex q e' Bq) as (k & Hkk & Ek). exists q, k. split; auto. split; auto. rewrite Ek.
      assert (S' : Sm (key q e') (key p e)) by (apply Sm_sym; auto; apply HD; auto).
      pose proof (low_spec q e' Hq' T2) as LS. destruct (low q e') as [(j, t)|] eqn:L.
      + destruct LS as (L1 & L2 & L3). assert (Mp : mt q e' p i). { split; auto. split. lia. split; auto. rewrite Ei. auto. }
        destruct (Z.lt_trichotomy j p) as [X|[X|X]].
        * exfalso. unfold ghostb in G. destruct (in_dec Z.eq_dec e (cand p)); [|contradiction]. pose proof (low_spec p e Hp T1) as LP. destruct (low p e) as [(a, b)|]; [discriminate|]. apply (LP j t); auto. apply (mt_trans p q e e' j t); auto. lia.
        * subst j. f_equal. f_equal. destruct L2 as (_ & _ & K3 & K4). apply (at_inj p); auto. apply (Hdist p); auto. apply bl_in; auto; apply at_in; auto. rewrite Ei. auto. rewrite Ei. apply (Sm_trans _ (key q e') _); auto. apply at_D; auto. apply HD; auto. apply HD; auto. apply Sm_sym; auto. apply HD; auto. apply at_D; auto.
        * exfalso. apply (L3 p i); auto.
      + exfalso. apply (LS p i). lia. split; auto. split. lia. split; auto. rewrite Ei. auto.
    - intros p e Hp Hin G NT. apply GF in G; auto. destruct (s4_ok p Hp) as (_ & D1 & _). rewrite D1. destruct (s3_ok p Hp) as (_ & _ & _ & _ & _ & O5 & _). rewrite O5. destruct (s2_ok p Hp) as (_ & _ & N2 & _). rewrite N2. destruct (s1_ok p Hp) as (_ & Q & _). apply (Q e G).
      intros i Hi (q & k & Hq & Hkk & L) Ei. assert (Cq : In (at_ q k) (cand q)) by (apply bl_in; auto; apply at_in; auto). pose proof (low_spec q (at_ q k) Hq Cq) as LS. rewrite L in LS. destruct LS as (L1 & (_ & _ & _ & L2) & _). assert (Cp : In (at_ p i) (cand p)) by (apply bl_in; auto; apply at_in; auto). apply (NT q (at_ q k)); auto. unfold on in *; lia. rewrite <- Ei. split; auto. split; auto. apply Sm_sym; auto; apply HD; auto.
    - intros p e Hp Hin G Nz. apply GF in G; auto. rewrite s4_gid by auto. destruct (s2_ok p Hp) as (_ & _ & _ & _ & _ & N5). destruct (in_split _ _ Hin) as (a & b & E). destruct (N5 a e b E G) as (Q & _). rewrite Q. replace (g_id (es p) e =? 0) with false by lia. auto.
    - intros p e a b Hp E G Ez. assert (Hin : In e (all p)) by (rewrite E; apply in_or_app; cbn; auto). apply GF in G; auto. rewrite s4_gid by auto. destruct (s2_ok p Hp) as (_ & _ & _ & _ & _ & N5). destruct (N5 a e b E G) as (Q & _). rewrite Q, Ez. cbn [Z.eqb]. rewrite s4_below by auto. f_equal. rewrite s4_owned. 2: auto. 2: rewrite E; apply incl_appl, incl_refl. unfold newb. f_equal. clear. induction a as [|x a IH]; cbn [filter]; auto. destruct (ghostb p x); cbn [negb andb filter]; auto. rewrite IH. auto.
    - intros p Hp. rewrite s4_below by auto. apply below_all; auto.
  Qed.
  (** The flags of the partition boundary. *)
  Lemma match_bd : forall p e, on n p -> g_bd (s4 p) e = true <-> g_bd (es p) e = true \/ (c_all c = true /\ c_min c <= p /\ exists q e', on n q /\ q <> p /\ twins p e q e').
  Proof.
    intros p e Hp. destruct (s4_ok p Hp) as (_ & _ & _ & D3 & _). rewrite D3. destruct (s3_ok p Hp) as (_ & _ & _ & O3 & _). rewrite O3. destruct (s2_ok p Hp) as (_ & _ & _ & N3 & _). rewrite N3. destruct (s1_ok p Hp) as (_ & _ & _ & _ & _ & _ & B). rewrite (B e).
    rewrite orb_true_iff, !andb_true_iff, existsb_exists, Z.leb_le. split; (intros [H|H]; [auto|right]).
    - destruct H as ((H1 & H2) & x & Hx & H3). split; auto. split; auto. apply andb_true_iff in H3. destruct H3 as (H3 & H4). assert (x = e) by lia. subst x. assert (Hc : In e (cand p)) by (apply bl_in; auto). destruct (fm_spec p e Hp Hc) as (_ & F). destruct (fm p e) as [(j, i)|]; [|discriminate]. destruct F as (F1 & (F2 & F3 & F4 & F5) & _). exists j, (at_ j i). split; auto. split; auto. split; auto. split; auto. apply bl_in; auto. apply at_in; auto.
    - destruct H as (H1 & H2 & q & e' & Hq & Nq & T). split; auto. exists e. assert (Hc : In e (cand p)) by apply T. split. apply bl_in; auto. rewrite Z.eqb_refl. cbn [andb]. destruct (fm_spec p e Hp Hc) as (_ & F). destruct (fm p e) as [(j, i)|]; auto. destruct (twin_mt p e q e' Hq Nq T) as (k & _ & M). exfalso. apply (F q k); auto. unfold lim. rewrite H1. unfold on in Hq. lia.
  Qed.
  Lemma match_stage : exists new gi, (forall lo, protocol n lo (lo + 6) (fun p => match_ids c (junk p) n p (info p) (id p) (all p) (cand p) (keyM p) kcmp (ecmp p) (es p)) (fun p => (new p, gi))) /\
    numbering n all twins es new /\
    (forall p e, on n p -> g_bd (new p) e = true <-> g_bd (es p) e = true \/ (c_all c = true /\ c_min c <= p /\ exists q e', on n q /\ q <> p /\ twins p e q e')) /\
    (forall j k, on n j -> 0 <= k < 9 -> k <> c_bnd c -> rdl gi (10 * j + k) = Ok (nth (Z.to_nat k) (info j) 0)).
  Proof.
    exists s4, gi2. split. exact match_protocol. split. exact match_result. split. exact match_bd. intros j k Hj Hkk Nk. rewrite gi2_at by (auto; lia). f_equal. apply inf2_ok; auto; lia.
  Qed.
End Match.
