(** Ranks that go through their partners in a common order never block. *)
From Coq Require Import ZArith List Lia Bool Arith ZifyBool ZifyNat Sorting.Sorted.
From Coq Require FinFun.
From Verif Require Import Base BaseProofs CommModel.
Import ListNotations.
Open Scope Z_scope.

Inductive op := OSnd (dst tag : Z) (m : msg) | ORcv (src tag : Z) (m : msg) | OCol (xs : list (list Z)).
(** Operations with the number of the phase they belong to. *)
Definition trace := list (Z * op).

Section Comm.
  Context {R : Type}.
  Variable n : Z.

  (** What a program does when it receives the messages written in the trace. *)
  Inductive follows (p : Z) : prog R -> trace -> R -> Prop :=
  | f_ret : forall r, follows p (Ret r) [] r
  | f_snd : forall ph d t m k tr r, follows p k tr r -> follows p (Snd d t m k) ((ph, OSnd d t m) :: tr) r
  | f_rcv : forall ph s t ty max k d tr r, follows p (k d) tr r -> Z.of_nat (length d) <= max -> follows p (Rcv s t ty max k) ((ph, ORcv s t (ty, d)) :: tr) r
  | f_col : forall ph x k xs tr r, follows p (k xs) tr r -> x = nth (Z.to_nat p) xs [] -> length xs = Z.to_nat n -> follows p (Col x k) ((ph, OCol xs) :: tr) r.

  (** Messages with their phase. *)
  Definition sends (q : Z) (tr : trace) : list (Z * (Z * msg)) :=
    flat_map (fun x => match snd x with OSnd d t m => if d =? q then [(fst x, (t, m))] else [] | _ => [] end) tr.
  Definition recvs (q : Z) (tr : trace) : list (Z * (Z * msg)) :=
    flat_map (fun x => match snd x with ORcv s t m => if s =? q then [(fst x, (t, m))] else [] | _ => [] end) tr.
  Definition colls (tr : trace) : list (Z * list (list Z)) :=
    flat_map (fun x => match snd x with OCol xs => [(fst x, xs)] | _ => [] end) tr.

  (** Order of the operations of rank [p]: by phase, then by partner; with a higher
      partner it sends first, with a lower one it receives first. *)
  Definition partner (o : op) : Z := match o with OSnd q _ _ => q | ORcv q _ _ => q | OCol _ => n end.
  Definition turn (p : Z) (o : op) : Z := match o with OSnd q _ _ => if p <? q then 0 else 1 | ORcv q _ _ => if p <? q then 1 else 0 | OCol _ => 0 end.
  Definition before (p : Z) (x y : Z * op) : Prop :=
    fst x < fst y \/ fst x = fst y /\ (partner (snd x) < partner (snd y) \/ partner (snd x) = partner (snd y) /\ turn p (snd x) <= turn p (snd y)).
  Definition legal (p : Z) (x : Z * op) : Prop := match snd x with OCol _ => True | o => on n (partner o) /\ partner o <> p end.
  Definition orderly (p : Z) (tr : trace) : Prop := StronglySorted (before p) tr /\ Forall (legal p) tr.

  (** Order of the meetings of all ranks. *)
  Definition lowp (p : Z) (o : op) : Z := match o with OCol _ => n | _ => Z.min p (partner o) end.
  Definition highp (p : Z) (o : op) : Z := match o with OCol _ => n | _ => Z.max p (partner o) end.
  Definition weight (p : Z) (x : Z * op) : Z := (fst x * (n + 1) + lowp p (snd x)) * (n + 1) + highp p (snd x).

  Lemma before_weight : forall p x y, on n p -> legal p x -> legal p y -> before p x y -> weight p x <= weight p y.
  Proof.
    intros p [a x] [b y] Hp Lx Ly H. unfold before, weight, legal, lowp, highp, on in *. cbn [fst snd] in *.
    assert (X : 0 <= match x with OCol _ => n | _ => Z.min p (partner x) end <= n /\ 0 <= match x with OCol _ => n | _ => Z.max p (partner x) end <= n) by (destruct x; cbn [partner] in *; lia).
    assert (Y : 0 <= match y with OCol _ => n | _ => Z.min p (partner y) end <= n /\ 0 <= match y with OCol _ => n | _ => Z.max p (partner y) end <= n) by (destruct y; cbn [partner] in *; lia).
    destruct H as [H|[-> H]].
    - set (l1 := match x with OCol _ => n | _ => Z.min p (partner x) end) in *. set (h1 := match x with OCol _ => n | _ => Z.max p (partner x) end) in *. set (l2 := match y with OCol _ => n | _ => Z.min p (partner y) end) in *. set (h2 := match y with OCol _ => n | _ => Z.max p (partner y) end) in *. nia.
    - assert (E : match x with OCol _ => n | _ => Z.min p (partner x) end < match y with OCol _ => n | _ => Z.min p (partner y) end \/ match x with OCol _ => n | _ => Z.min p (partner x) end = match y with OCol _ => n | _ => Z.min p (partner y) end /\ match x with OCol _ => n | _ => Z.max p (partner x) end <= match y with OCol _ => n | _ => Z.max p (partner y) end).
      { destruct x, y; cbn [partner] in *; lia. }
      set (l1 := match x with OCol _ => n | _ => Z.min p (partner x) end) in *. set (h1 := match x with OCol _ => n | _ => Z.max p (partner x) end) in *. set (l2 := match y with OCol _ => n | _ => Z.min p (partner y) end) in *. set (h2 := match y with OCol _ => n | _ => Z.max p (partner y) end) in *. nia.
  Qed.
  (** Equal weights: the same meeting. *)
  Lemma weight_eq : forall p q x y, on n p -> on n q -> legal p x -> legal q y -> weight p x = weight q y -> fst x = fst y /\ lowp p (snd x) = lowp q (snd y) /\ highp p (snd x) = highp q (snd y).
  Proof.
    intros p q [a x] [b y] Hp Hq Lx Ly H. unfold weight, legal, lowp, highp, on in *. cbn [fst snd] in *.
    assert (X : 0 <= match x with OCol _ => n | _ => Z.min p (partner x) end <= n /\ 0 <= match x with OCol _ => n | _ => Z.max p (partner x) end <= n) by (destruct x; cbn [partner] in *; lia).
    assert (Y : 0 <= match y with OCol _ => n | _ => Z.min q (partner y) end <= n /\ 0 <= match y with OCol _ => n | _ => Z.max q (partner y) end <= n) by (destruct y; cbn [partner] in *; lia).
    set (l1 := match x with OCol _ => n | _ => Z.min p (partner x) end) in *. set (h1 := match x with OCol _ => n | _ => Z.max p (partner x) end) in *. set (l2 := match y with OCol _ => n | _ => Z.min q (partner y) end) in *. set (h2 := match y with OCol _ => n | _ => Z.max q (partner y) end) in *.
    assert (a * (n + 1) + l1 = b * (n + 1) + l2) by nia. assert (a = b) by nia. split; auto. split; nia.
  Qed.

  (** ** The invariant of all executions *)
  Record good (w : world R) (rem : Z -> trace) (res : Z -> R) : Prop := {
    g_follow : forall p, on n p -> follows p (procs w p) (rem p) (res p);
    g_order : forall p, on n p -> orderly p (rem p);
    g_chan : forall p q, on n p -> on n q -> exists c, map snd c = chan w p q /\ c ++ sends q (rem p) = recvs p (rem q);
    g_coll : forall p q, on n p -> on n q -> colls (rem p) = colls (rem q) }.

  Lemma orderly_tl : forall p x tr, orderly p (x :: tr) -> orderly p tr.
  Proof. intros p x tr [A B]. inversion A; inversion B; subst. split; auto. Qed.
  Lemma head_min : forall p x y tr, on n p -> orderly p (x :: tr) -> In y (x :: tr) -> weight p x <= weight p y.
  Proof.
    intros p x y tr Hp [A B] [->|H]. lia. inversion A as [|? ? _ F]; subst. inversion B as [|? ? L1 L2]; subst. rewrite Forall_forall in F, L2. apply before_weight; auto.
  Qed.
  Lemma sends_in : forall q tr ph t m, In (ph, (t, m)) (sends q tr) -> In (ph, OSnd q t m) tr.
  Proof. intros q tr ph t m H. apply in_flat_map in H. destruct H as ([a o] & Hi & H). cbn in H. destruct o; try contradiction. destruct (Z.eqb_spec dst q); [|contradiction]. destruct H as [H|[]]. inversion H; subst. auto. Qed.
  Lemma recvs_in : forall q tr ph t m, In (ph, (t, m)) (recvs q tr) -> In (ph, ORcv q t m) tr.
  Proof. intros q tr ph t m H. apply in_flat_map in H. destruct H as ([a o] & Hi & H). cbn in H. destruct o; try contradiction. destruct (Z.eqb_spec src q); [|contradiction]. destruct H as [H|[]]. inversion H; subst. auto. Qed.
  Lemma colls_in : forall tr ph xs, In (ph, xs) (colls tr) -> In (ph, OCol xs) tr.
  Proof. intros tr ph xs H. apply in_flat_map in H. destruct H as ([a o] & Hi & H). cbn in H. destruct o; try contradiction. destruct H as [H|[]]. inversion H; subst. auto. Qed.

  Lemma min_rank : forall (f : Z -> option Z) k, (forall p, 0 <= p < k -> f p = None) \/ exists p w, 0 <= p < k /\ f p = Some w /\ forall q v, 0 <= q < k -> f q = Some v -> w <= v.
  Proof.
    intros f k. assert (H : forall m : nat, (forall p, 0 <= p < Z.of_nat m -> f p = None) \/ exists p w, 0 <= p < Z.of_nat m /\ f p = Some w /\ forall q v, 0 <= q < Z.of_nat m -> f q = Some v -> w <= v).
    { induction m as [|m IH]. left. intros. lia. destruct (f (Z.of_nat m)) as [v|] eqn:E.
      - right. destruct IH as [N|(p & w & Hp & Hw & M)].
        + exists (Z.of_nat m), v. split. lia. split; auto. intros q v' Hq Hv. destruct (Z.eq_dec q (Z.of_nat m)). subst. rewrite E in Hv. inversion Hv. lia. rewrite N in Hv by lia. discriminate.
        + destruct (Z_le_dec w v). * exists p, w. split. lia. split; auto. intros q v' Hq Hv. destruct (Z.eq_dec q (Z.of_nat m)). subst. rewrite E in Hv. inversion Hv. lia. apply (M q); auto. lia.
          * exists (Z.of_nat m), v. split. lia. split; auto. intros q v' Hq Hv. destruct (Z.eq_dec q (Z.of_nat m)). subst. rewrite E in Hv. inversion Hv. lia. specialize (M q v' ltac:(lia) Hv). lia.
      - destruct IH as [N|(p & w & Hp & Hw & M)]. + left. intros p Hp. destruct (Z.eq_dec p (Z.of_nat m)). subst; auto. apply N. lia.
        + right. exists p, w. split. lia. split; auto. intros q v' Hq Hv. destruct (Z.eq_dec q (Z.of_nat m)). subst. congruence. apply (M q); auto. lia. }
    destruct (Z_le_dec 0 k). specialize (H (Z.to_nat k)). rewrite Z2Nat.id in H by auto. auto. left. intros. lia.
  Qed.

  (** The head of the other rank is at the same meeting. *)
  Lemma partner_head : forall (rem : Z -> trace) p q x y tr, on n p -> on n q -> orderly p (rem p) -> orderly q (rem q) -> (rem p = x :: tr) ->
    (forall r v z, on n r -> rem r = v :: z -> weight p x <= weight r v) -> In y (rem q) -> weight q y = weight p x -> exists z tr', rem q = z :: tr' /\ weight q z = weight p x.
  Proof.
    intros rem p q x y tr Hp Hq Op Oq E M Hi Hw. destruct (rem q) as [|z tr'] eqn:Eq; [contradiction|]. exists z, tr'. split; auto. assert (weight q z <= weight q y) by (eapply head_min; eauto). specialize (M q z tr' Hq Eq). lia.
  Qed.
  Lemma legal_head : forall p x tr, orderly p (x :: tr) -> legal p x.
  Proof. intros p x tr [_ B]. inversion B; auto. Qed.
  Lemma legal_in : forall p x tr, orderly p tr -> In x tr -> legal p x.
  Proof. intros p x tr [_ B] H. rewrite Forall_forall in B. auto. Qed.
  Lemma head_turn : forall p x y tr, orderly p (x :: tr) -> In y tr -> fst x = fst y -> partner (snd x) = partner (snd y) -> turn p (snd x) <= turn p (snd y).
  Proof. intros p x y tr [A _] H E1 E2. inversion A as [|? ? _ F]; subst. rewrite Forall_forall in F. specialize (F y H). unfold before in F. lia. Qed.

  Theorem progress : forall w rem res, good w rem res -> 0 <= n -> (forall p, on n p -> rem p = []) \/ exists w', sure n w w'.
  Proof.
    intros w rem res G Hn. destruct (min_rank (fun p => match rem p with [] => None | x :: _ => Some (weight p x) end) n) as [N|(p & wt & Hp & Hw & M)].
    { left. intros p Hp. specialize (N p Hp). destruct (rem p); auto. discriminate. }
    right. destruct (rem p) as [|x tr] eqn:Ep; [discriminate|]. inversion Hw; subst wt. clear Hw.
    assert (M' : forall r v z, on n r -> rem r = v :: z -> weight p x <= weight r v). { intros r v z Hr E. specialize (M r (weight r v) Hr). cbv beta in M. rewrite E in M. auto. } clear M.
    pose proof (g_order _ _ _ G) as GO. pose proof (g_follow _ _ _ G) as GF. pose proof (GO p Hp) as Op. rewrite Ep in Op. pose proof (legal_head _ _ _ Op) as Lx. destruct x as [ph o].
    (* weights of both directions of a meeting *)
    assert (WM : forall q o', on n q -> on n p -> q <> p -> partner o' = p -> partner o = q -> lowp q o' = Z.min p q -> highp q o' = Z.max p q -> lowp p o = Z.min p q -> highp p o = Z.max p q -> weight q (ph, o') = weight p (ph, o)). { intros q o' _ _ _ _ _ E1 E2 E3 E4. unfold weight. cbn [fst snd]. rewrite E1, E2, E3, E4. auto. }
    destruct o as [q tag m|q tag m|xs].
    - (* send *)
      destruct Lx as [Hq Hne]. cbn [partner] in Hq, Hne. cbn [snd] in *. destruct (g_chan _ _ _ G p q Hp Hq) as (c & Ec & Em). rewrite Ep in Em. cbn [sends flat_map snd] in Em. rewrite Z.eqb_refl in Em. cbn [app fst] in Em. change (flat_map _ tr) with (sends q tr) in Em.
      assert (Hi : In (ph, ORcv p tag m) (rem q)). { apply recvs_in. rewrite <- Em, in_app_iff. cbn. auto. }
      destruct (partner_head rem p q (ph, OSnd q tag m) _ tr Hp Hq (GO p Hp) (GO q Hq) Ep M' Hi) as ([ph' o'] & tr' & Eq & Ew).
      { apply WM; auto; cbn [lowp highp partner]; lia. }
      pose proof (GO q Hq) as Oq. rewrite Eq in Oq. pose proof (legal_head _ _ _ Oq) as Lq. destruct (weight_eq q p _ _ Hq Hp Lq (legal_head _ _ _ Op) Ew) as (E1 & E2 & E3). cbn [fst snd lowp highp partner] in E1, E2, E3. subst ph'.
      assert (Pq : match o' with OCol _ => False | _ => partner o' = p end). { unfold on, legal in *. destruct o'; cbn [partner lowp highp snd] in *; lia. }
      pose proof (GF p Hp) as Fp. rewrite Ep in Fp. inversion Fp as [|? ? ? ? kp ? ? Fp' A1 A2| |]; subst. pose proof (GF q Hq) as Fq. rewrite Eq in Fq.
      destruct o' as [p' tag' m'|p' tag' m'|]; try contradiction; cbn [partner] in Pq; subst p'.
      + (* both send *)
        exfalso. assert (q < p \/ p < q) by lia. destruct (g_chan _ _ _ G q p Hq Hp) as (c' & _ & Em'). rewrite Eq in Em'. cbn [sends flat_map snd] in Em'. rewrite Z.eqb_refl in Em'. cbn [app fst] in Em'.
        assert (Hi' : In (ph, ORcv q tag' m') (rem p)). { apply recvs_in. rewrite <- Em', in_app_iff. cbn. auto. }
        rewrite Ep in Hi'. destruct Hi' as [Hi'|Hi']; [discriminate|]. pose proof (head_turn _ _ _ _ Op Hi' eq_refl eq_refl) as T1. rewrite Eq in Hi. destruct Hi as [Hi|Hi]; [discriminate|]. pose proof (head_turn _ _ _ _ Oq Hi eq_refl eq_refl) as T2. cbn [turn snd] in T1, T2. destruct (Z.ltb_spec p q), (Z.ltb_spec q p); lia.
      + (* send meets receive *)
        rewrite Eq in Em. cbn [recvs flat_map snd] in Em. rewrite Z.eqb_refl in Em. cbn [app fst] in Em. inversion Fq as [| |? ? ? ty max kq d ? ? Fq' Ld A3 A4|]; subst. destruct c as [|[h1 h2] c].
        * cbn [app] in Em. inversion Em; subst. eexists. eapply (s_meet n w p q _ _ _ _ _ _ Hp Hq); [auto | symmetry; eassumption | symmetry; eassumption | rewrite <- Ec; intros x [] | assumption].
        * cbn [app map snd] in *. inversion Em; subst. eexists. eapply (s_recv n w p q _ _ _ _ _ [] _ Hp Hq); [symmetry; eassumption | rewrite <- Ec; reflexivity | intros x [] | assumption].
    - (* receive *)
      destruct Lx as [Hq Hne]. cbn [partner] in Hq, Hne. cbn [snd] in *. destruct (g_chan _ _ _ G q p Hq Hp) as (c & Ec & Em). rewrite Ep in Em. cbn [recvs flat_map snd] in Em. rewrite Z.eqb_refl in Em. cbn [app fst] in Em.
      pose proof (GF p Hp) as Fp. rewrite Ep in Fp. inversion Fp as [| |? ? ? ty max kp d ? ? Fp' Ld A1 A2|]; subst. destruct c as [|[h1 h2] c].
      2: { cbn [app map snd] in *. inversion Em; subst. eexists. eapply (s_recv n w q p _ _ _ _ _ [] _ Hq Hp); [symmetry; eassumption | rewrite <- Ec; reflexivity | intros x [] | assumption]. }
      cbn [app map] in *. assert (Hi : In (ph, OSnd p tag (ty, d)) (rem q)). { apply sends_in. rewrite Em. cbn. auto. }
      destruct (partner_head rem p q (ph, ORcv q tag (ty, d)) _ tr Hp Hq (GO p Hp) (GO q Hq) Ep M' Hi) as ([ph' o'] & tr' & Eq & Ew).
      { apply WM; auto; cbn [lowp highp partner]; lia. }
      pose proof (GO q Hq) as Oq. rewrite Eq in Oq. pose proof (legal_head _ _ _ Oq) as Lq. destruct (weight_eq q p _ _ Hq Hp Lq (legal_head _ _ _ Op) Ew) as (E1 & E2 & E3). cbn [fst snd lowp highp partner] in E1, E2, E3. subst ph'.
      assert (Pq : match o' with OCol _ => False | _ => partner o' = p end). { unfold on, legal in *. destruct o'; cbn [partner lowp highp snd] in *; lia. }
      pose proof (GF q Hq) as Fq. rewrite Eq in Fq. destruct o' as [p' tag' m'|p' tag' m'|]; try contradiction; cbn [partner] in Pq; subst p'.
      + rewrite Eq in Em. cbn [sends flat_map snd] in Em. rewrite Z.eqb_refl in Em. cbn [app fst] in Em. inversion Em; subst. inversion Fq as [|? ? ? ? kq ? ? Fq' A3 A4| |]; subst. eexists. eapply (s_meet n w q p _ _ _ _ _ _ Hq Hp); [auto | symmetry; eassumption | symmetry; eassumption | rewrite <- Ec; intros x [] | assumption].
      + (* both receive *)
        destruct (g_chan _ _ _ G p q Hp Hq) as (c' & Ec' & Em'). rewrite Eq in Em'. cbn [recvs flat_map snd] in Em'. rewrite Z.eqb_refl in Em'. cbn [app fst] in Em'. inversion Fq as [| |? ? ? ty' max' kq d' ? ? Fq' Ld' A3 A4|]; subst. destruct c' as [|[h1 h2] c'].
        2: { cbn [app map snd] in *. inversion Em'; subst. eexists. eapply (s_recv n w p q _ _ _ _ _ [] _ Hp Hq); [symmetry; eassumption | rewrite <- Ec'; reflexivity | intros x [] | assumption]. }
        exfalso. cbn [app map] in *. assert (Hi' : In (ph, OSnd q tag' (ty', d')) (rem p)). { apply sends_in. rewrite Em'. cbn. auto. }
        rewrite Ep in Hi'. destruct Hi' as [Hi'|Hi']; [discriminate|]. pose proof (head_turn _ _ _ _ Op Hi' eq_refl eq_refl) as T1. rewrite Eq in Hi. destruct Hi as [Hi|Hi]; [discriminate|]. pose proof (head_turn _ _ _ _ Oq Hi eq_refl eq_refl) as T2. cbn [turn snd] in T1, T2. destruct (Z.ltb_spec p q), (Z.ltb_spec q p); lia.
    - (* collective *)
      assert (A : forall q, on n q -> exists k tr', rem q = (ph, OCol xs) :: tr' /\ procs w q = Col (nth (Z.to_nat q) xs []) k /\ length xs = Z.to_nat n).
      { intros q Hq. pose proof (g_coll _ _ _ G p q Hp Hq) as EC. rewrite Ep in EC. cbn [colls flat_map snd app fst] in EC.
        assert (Hi : In (ph, OCol xs) (rem q)). { apply colls_in. rewrite <- EC. cbn. auto. }
        destruct (partner_head rem p q (ph, OCol xs) _ tr Hp Hq (GO p Hp) (GO q Hq) Ep M' Hi) as ([ph' o'] & tr' & Eq & Ew). reflexivity.
        pose proof (GO q Hq) as Oq. rewrite Eq in Oq. pose proof (legal_head _ _ _ Oq) as Lq. destruct (weight_eq q p _ _ Hq Hp Lq (legal_head _ _ _ Op) Ew) as (E1 & E2 & E3). cbn [fst snd lowp highp partner] in E1, E2, E3. subst ph'.
        destruct o' as [p' tag' m'|p' tag' m'|xs']; unfold legal, on in *; cbn [lowp highp partner snd] in *; try lia. rewrite Eq in EC. cbn [colls flat_map snd app fst] in EC. inversion EC; subst xs'. pose proof (GF q Hq) as Fq. rewrite Eq in Fq. inversion Fq as [| | |? ? k ? ? ? Fq' Ex El A3]; subst. exists k, tr'. auto. }
      assert (E : forall q, on n q -> procs w q = Col (match procs w q with Col x _ => x | _ => [] end) (match procs w q with Col _ k => k | _ => fun _ => Fail end)). { intros q Hq. destruct (A q Hq) as (k & _ & _ & E & _). rewrite E. auto. }
      eexists. exact (s_coll n w _ _ E).
  Qed.

  (** ** Preservation *)
  Definition left (rem : Z -> trace) : nat := fold_right Nat.add 0%nat (map (fun p => length (rem p)) (ranks n)).

  Lemma set1_same : forall A (f : Z -> A) p x, set1 f p x p = x.
  Proof. intros. unfold set1. rewrite Z.eqb_refl. auto. Qed.
  Lemma set1_other : forall A (f : Z -> A) p x q, q <> p -> set1 f p x q = f q.
  Proof. intros. unfold set1. apply Z.eqb_neq in H. rewrite H. auto. Qed.
  Lemma set2_same : forall A (f : Z -> Z -> A) p q x, set2 f p q x p q = x.
  Proof. intros. unfold set2. rewrite !Z.eqb_refl. auto. Qed.
  Lemma set2_other : forall A (f : Z -> Z -> A) p q x a b, a <> p \/ b <> q -> set2 f p q x a b = f a b.
  Proof. intros A f p q x a b H. unfold set2. destruct (Z.eqb_spec a p), (Z.eqb_spec b q); cbn [andb]; auto. lia. Qed.
  Lemma in_ranks : forall p, In p (ranks n) <-> on n p.
  Proof.
    intros p. unfold ranks, on. rewrite in_map_iff. split. intros (k & <- & H). apply in_seq in H. lia. intros H. exists (Z.to_nat p). split. lia. apply in_seq. lia.
  Qed.
  Lemma nd_ranks : NoDup (ranks n).
  Proof. unfold ranks. apply FinFun.Injective_map_NoDup. intros a b. lia. apply seq_NoDup. Qed.
  Lemma sum_less : forall (f g : Z -> nat) l p, In p l -> (f p < g p)%nat -> (forall q, In q l -> f q <= g q)%nat -> (fold_right Nat.add 0 (map f l) < fold_right Nat.add 0 (map g l))%nat.
  Proof.
    intros f g. induction l as [|x l IH]; intros p Hi Hl Hle. contradiction. cbn [map fold_right].
    assert (forall l', (forall q, In q l' -> f q <= g q)%nat -> (fold_right Nat.add 0 (map f l') <= fold_right Nat.add 0 (map g l'))%nat). { induction l' as [|y l' IH']; intros Hx; cbn. lia. specialize (IH' (fun q Hq => Hx q (or_intror Hq))). specialize (Hx y (or_introl eq_refl)). lia. }
    destruct Hi as [->|Hi]. specialize (H l (fun q Hq => Hle q (or_intror Hq))). lia. specialize (IH p Hi Hl (fun q Hq => Hle q (or_intror Hq))). specialize (Hle x (or_introl eq_refl)). lia.
  Qed.
  Lemma left_less : forall rem rem' p, on n p -> (length (rem' p) < length (rem p))%nat -> (forall q, on n q -> length (rem' q) <= length (rem q))%nat -> (left rem' < left rem)%nat.
  Proof. intros rem rem' p Hp Hl Hle. unfold left. apply (sum_less (fun q => length (rem' q)) (fun q => length (rem q)) _ p). apply in_ranks; auto. auto. intros q Hq. apply Hle, in_ranks. auto. Qed.

  Lemma col_all : forall (x : Z -> list Z) xs, length xs = Z.to_nat n -> (forall p, on n p -> x p = nth (Z.to_nat p) xs []) -> map x (ranks n) = xs.
  Proof.
    intros x xs L H. unfold ranks. rewrite map_map. apply nth_ext with (d := []) (d' := []). rewrite map_length, seq_length. lia.
    intros i Hi. rewrite map_length, seq_length in Hi. rewrite (nth_indep _ [] (x (Z.of_nat 0))) by (rewrite map_length, seq_length; auto). rewrite (map_nth (fun i => x (Z.of_nat i))), seq_nth by auto. cbn [Nat.add]. rewrite H by (unfold on; lia). rewrite Nat2Z.id. auto.
  Qed.

  Lemma preserve : forall w w' rem res, good w rem res -> step n w w' -> 0 < n -> exists rem', good w' rem' res /\ (left rem' < left rem)%nat.
  Proof.
    intros w w' rem res [GF GO GC GK] St Hn. destruct St as [w w' Hs|w p q tag m k Hp Hq Ek]; [destruct Hs as [w p q tag ty max k d l1 l2 Hp Hq Ek Ec Nt Ld|w p q tag ty max kp kq d Hp Hq Hpq Ep Eq Nt Ld|w x k Ek]|].
    - (* receive *)
      pose proof (GF q Hq) as F. rewrite Ek in F. inversion F as [| |ph ? ? ? ? ? d' tr ? F' Ld' A1 A2 A3|]; subst. pose proof (GO q Hq) as O. rewrite <- A2 in O. destruct (legal_head _ _ _ O) as [_ Hne]. cbn [snd partner] in Hne. destruct (GC p q Hp Hq) as (c & C1 & C2). rewrite <- A2 in C2. cbn [recvs flat_map snd] in C2. rewrite Z.eqb_refl in C2. cbn [app fst] in C2. rewrite Ec in C1.
      assert (E : exists c', c = (ph, (tag, (ty, d'))) :: c' /\ l1 = [] /\ d' = d /\ map snd c' = l2).
      { destruct c as [|[h1 h2] c']. destruct l1; discriminate. cbn [app map snd] in *. inversion C2; subst. exists c'. split; auto. destruct l1 as [|y l1]. cbn [app] in C1. inversion C1; subst. auto. cbn [app] in C1. inversion C1; subst. exfalso. apply (Nt _ (or_introl eq_refl)). auto. }
      destruct E as (c' & -> & -> & -> & E2). cbn [app] in C2. inversion C2 as [C3]. clear C2.
      exists (set1 rem q tr). split.
      + constructor; cbn [procs chan].
        * intros a Ha. destruct (Z.eq_dec a q) as [->|N]. rewrite !set1_same. auto. rewrite !set1_other by auto. auto.
        * intros a Ha. destruct (Z.eq_dec a q) as [->|N]. rewrite set1_same. eapply orderly_tl; eauto. rewrite set1_other by auto. auto.
        * intros a b Ha Hb. destruct (Z.eq_dec b q) as [->|N].
          -- rewrite (set1_same _ rem). destruct (Z.eq_dec a p) as [->|N'].
             ++ rewrite set2_same. exists c'. split; auto. rewrite set1_other by auto. exact C3.
             ++ rewrite set2_other by auto. destruct (GC a q Ha Hq) as (e & E3 & E4). exists e. split; auto. rewrite <- A2 in E4. cbn [recvs flat_map snd] in E4. destruct (Z.eqb_spec p a); [congruence|]. cbn [app] in E4. change (flat_map _ tr) with (recvs a tr) in E4. rewrite <- E4. destruct (Z.eq_dec a q) as [->|N2]. rewrite set1_same. rewrite <- A2. cbn. auto. rewrite set1_other; auto.
          -- rewrite (set1_other _ rem q tr b) by auto. rewrite set2_other by auto. destruct (GC a b Ha Hb) as (e & E3 & E4). exists e. split; auto. destruct (Z.eq_dec a q) as [->|N2]. rewrite set1_same. rewrite <- A2 in E4. cbn in E4. auto. rewrite set1_other; auto.
        * assert (H : forall a, on n a -> colls (set1 rem q tr a) = colls (rem a)). { intros a Ha. destruct (Z.eq_dec a q) as [->|N]. rewrite set1_same, <- A2. auto. rewrite set1_other; auto. } intros. rewrite !H by auto. auto.
      + apply left_less with (p := q); auto. rewrite set1_same, <- A2. cbn. lia. intros a Ha. destruct (Z.eq_dec a q) as [->|N]. rewrite set1_same, <- A2. cbn. lia. rewrite set1_other; auto.
    - (* meeting *)
      pose proof (GF p Hp) as F1. rewrite Ep in F1. inversion F1 as [|ph1 ? ? ? ? tr1 ? F1' B1 B2 B3| |]; subst. pose proof (GF q Hq) as F2. rewrite Eq in F2. inversion F2 as [| |ph2 ? ? ? ? ? d' tr2 ? F2' Ld' A1 A2 A3|]; subst.
      destruct (GC p q Hp Hq) as (c & C1 & C2). rewrite <- A2, <- B2 in C2. cbn [sends recvs flat_map snd] in C2. rewrite !Z.eqb_refl in C2. cbn [app fst] in C2.
      destruct c as [|[h1 h2] c]. 2: { cbn [app map snd] in *. inversion C2; subst. exfalso. apply (Nt (tag, (ty, d'))); auto. rewrite <- C1. cbn. auto. }
      cbn [app] in C2. inversion C2 as [[C3 C4 C5]]. subst d' ph2. clear C2.
      exists (set1 (set1 rem p tr1) q tr2). split.
      + assert (Hs : forall a b, on n a -> on n b -> (a <> p \/ b <> q) -> sends b (set1 (set1 rem p tr1) q tr2 a) = sends b (rem a)).
        { intros a b Ha Hb N. destruct (Z.eq_dec a q) as [->|N1]. rewrite set1_same, <- A2. auto. rewrite set1_other by auto. destruct (Z.eq_dec a p) as [->|N2]. rewrite set1_same, <- B2. cbn. destruct (Z.eqb_spec q b). lia. auto. rewrite set1_other; auto. }
        assert (Hr : forall a b, on n a -> on n b -> (a <> p \/ b <> q) -> recvs a (set1 (set1 rem p tr1) q tr2 b) = recvs a (rem b)).
        { intros a b Ha Hb N. destruct (Z.eq_dec b q) as [->|N1]. rewrite set1_same, <- A2. cbn. destruct (Z.eqb_spec p a). lia. auto. rewrite set1_other by auto. destruct (Z.eq_dec b p) as [->|N2]. rewrite set1_same, <- B2. auto. rewrite set1_other; auto. }
        constructor; cbn [procs chan].
        * intros a Ha. destruct (Z.eq_dec a q) as [->|N]. rewrite !set1_same. auto. rewrite !(set1_other _ _ q) by auto. destruct (Z.eq_dec a p) as [->|N2]. rewrite !set1_same. auto. rewrite !set1_other; auto.
        * intros a Ha. destruct (Z.eq_dec a q) as [->|N]. rewrite !set1_same. eapply orderly_tl. rewrite A2. auto. rewrite !(set1_other _ _ q) by auto. destruct (Z.eq_dec a p) as [->|N2]. rewrite !set1_same. eapply orderly_tl. rewrite B2. auto. rewrite !set1_other; auto.
        * intros a b Ha Hb. destruct (Z.eq_dec a p) as [->|N1]. destruct (Z.eq_dec b q) as [->|N2].
          -- exists []. split; auto. rewrite set1_same, set1_other, set1_same by auto. auto.
          -- rewrite Hs, Hr by auto. auto.
          -- rewrite Hs, Hr by auto. auto.
        * assert (H : forall a, on n a -> colls (set1 (set1 rem p tr1) q tr2 a) = colls (rem a)). { intros a Ha. destruct (Z.eq_dec a q) as [->|N]. rewrite set1_same, <- A2. auto. rewrite set1_other by auto. destruct (Z.eq_dec a p) as [->|N2]. rewrite set1_same, <- B2. auto. rewrite set1_other; auto. } intros. rewrite !H by auto. auto.
      + apply left_less with (p := q); auto. rewrite set1_same, <- A2. cbn. lia. intros a Ha. destruct (Z.eq_dec a q) as [->|N]. rewrite set1_same, <- A2. cbn. lia. rewrite set1_other by auto. destruct (Z.eq_dec a p) as [->|N2]. rewrite set1_same, <- B2. cbn. lia. rewrite set1_other; auto.
    - (* collective *)
      assert (H : forall p, on n p -> exists ph xs tr, rem p = (ph, OCol xs) :: tr /\ follows p (k p xs) tr (res p) /\ x p = nth (Z.to_nat p) xs [] /\ length xs = Z.to_nat n). { intros p Hp. pose proof (GF p Hp) as F. rewrite (Ek p Hp) in F. inversion F as [| | |ph ? ? xs tr ? F' Ex El A1 A2 A3]; subst. exists ph, xs, tr. auto. }
      assert (H0 : on n 0) by (unfold on; lia). destruct (H 0 H0) as (ph & xs & tr0 & E0 & _ & _ & L).
      assert (H' : forall p, on n p -> rem p = (ph, OCol xs) :: tl (rem p) /\ follows p (k p xs) (tl (rem p)) (res p) /\ x p = nth (Z.to_nat p) xs []). { intros p Hp. destruct (H p Hp) as (ph' & xs' & tr & E & F & X & _). pose proof (GK 0 p H0 Hp) as K. rewrite E0, E in K. cbn in K. inversion K; subst. rewrite E. auto. }
      assert (X : map x (ranks n) = xs). { apply col_all; auto. intros p Hp. apply H'. auto. }
      exists (fun p => tl (rem p)). split.
      + constructor; cbn [procs chan].
        * intros p Hp. unfold on in Hp. replace ((0 <=? p) && (p <? n)) with true by lia. rewrite X. apply H'. auto.
        * intros p Hp. pose proof (GO p Hp) as O. rewrite (proj1 (H' p Hp)) in O. eapply orderly_tl; eauto.
        * intros a b Ha Hb. destruct (GC a b Ha Hb) as (c & C1 & C2). exists c. split; auto. rewrite (proj1 (H' a Ha)), (proj1 (H' b Hb)) in C2. exact C2.
        * intros a b Ha Hb. pose proof (GK a b Ha Hb) as K. rewrite (proj1 (H' a Ha)), (proj1 (H' b Hb)) in K. cbn in K. inversion K. auto.
      + assert (HL : forall a, on n a -> length (rem a) = S (length (tl (rem a)))) by (intros a Ha; rewrite (proj1 (H' a Ha)); auto). apply left_less with (p := 0); auto. rewrite (HL 0 H0). lia. intros a Ha. rewrite (HL a Ha). lia.
    - (* buffered send *)
      pose proof (GF p Hp) as F1. rewrite Ek in F1. inversion F1 as [|ph ? ? ? ? tr ? F' B1 B2 B3| |]; subst. pose proof (GO p Hp) as O. rewrite <- B2 in O. destruct (legal_head _ _ _ O) as [_ Hne]. cbn [snd partner] in Hne.
      exists (set1 rem p tr). split.
      + constructor; cbn [procs chan].
        * intros a Ha. destruct (Z.eq_dec a p) as [->|N]. rewrite !set1_same. auto. rewrite !set1_other by auto. auto.
        * intros a Ha. destruct (Z.eq_dec a p) as [->|N]. rewrite set1_same. eapply orderly_tl; eauto. rewrite set1_other by auto. auto.
        * assert (Hr : forall a b, recvs a (set1 rem p tr b) = recvs a (rem b)). { intros a b. destruct (Z.eq_dec b p) as [->|N]. rewrite set1_same, <- B2. auto. rewrite set1_other; auto. }
          intros a b Ha Hb. rewrite Hr. destruct (GC a b Ha Hb) as (c & C1 & C2). destruct (Z.eq_dec a p) as [->|N]. rewrite set1_same. destruct (Z.eq_dec b q) as [->|N2].
          -- exists (c ++ [(ph, (tag, m))]). rewrite set2_same, map_app, C1. split; auto. rewrite <- C2, <- app_assoc, <- B2. cbn [sends flat_map snd]. rewrite Z.eqb_refl. auto.
          -- exists c. rewrite set2_other by auto. split; auto. rewrite <- C2, <- B2. cbn [sends flat_map snd]. destruct (Z.eqb_spec q b); [congruence|]. auto.
          -- exists c. rewrite set2_other by auto. split; auto. rewrite set1_other by auto. auto.
        * assert (H : forall a, on n a -> colls (set1 rem p tr a) = colls (rem a)). { intros a Ha. destruct (Z.eq_dec a p) as [->|N]. rewrite set1_same, <- B2. auto. rewrite set1_other; auto. } intros. rewrite !H by auto. auto.
      + apply left_less with (p := p); auto. rewrite set1_same, <- B2. cbn. lia. intros a Ha. destruct (Z.eq_dec a p) as [->|N]. rewrite set1_same, <- B2. cbn. lia. rewrite set1_other; auto.
  Qed.

  Lemma exec_good : forall k w w' rem res, good w rem res -> exec n k w w' -> 0 < n -> exists rem', good w' rem' res /\ (k + left rem' <= left rem)%nat.
  Proof.
    intros k w w' rem res G E Hn. revert rem G. induction E as [w|k w1 w2 w3 S1 E IH]; intros rem G. exists rem. split; [auto|lia]. destruct (preserve _ _ _ _ G S1 Hn) as (r1 & G1 & L1). destruct (IH r1 G1) as (r2 & G2 & L2). exists r2. split; [auto|lia].
  Qed.

  (** ** The theorem for given traces *)
  Definition finished (w : world R) (res : Z -> R) : Prop := (forall p, on n p -> procs w p = Ret (res p)) /\ (forall p q, on n p -> on n q -> chan w p q = []).

  Lemma good_done : forall w rem res, good w rem res -> (forall p, on n p -> rem p = []) -> finished w res.
  Proof.
    intros w rem res [GF GO GC GK] H. split. intros p Hp. pose proof (GF p Hp) as F. rewrite H in F by auto. inversion F; auto. intros p q Hp Hq. destruct (GC p q Hp Hq) as (c & <- & C). rewrite !H in C by auto. cbn in C. rewrite app_nil_r in C. subst. auto.
  Qed.

  Record matched (tr : Z -> trace) : Prop := {
    m_order : forall p, on n p -> orderly p (tr p);
    m_pairs : forall p q, on n p -> on n q -> sends q (tr p) = recvs p (tr q);
    m_colls : forall p q, on n p -> on n q -> colls (tr p) = colls (tr q) }.

  Theorem never_stuck : forall ps tr res, 0 < n -> matched tr -> (forall p, on n p -> follows p (ps p) (tr p) (res p)) ->
    forall k w, exec n k (init ps) w -> (k <= left tr)%nat /\ (finished w res \/ exists w', sure n w w').
  Proof.
    intros ps tr res Hn [MO MP MC] F k w E. assert (G : good (init ps) tr res). { constructor; auto. intros p q Hp Hq. exists []. split; auto. cbn [app]. auto. }
    destruct (exec_good _ _ _ _ _ G E Hn) as (rem & G' & L). split. lia. destruct (progress _ _ _ G') as [D|D]. lia. left. eapply good_done; eauto. auto.
  Qed.
End Comm.
