(** Property C14: attribute values. *)
From Coq Require Import ZArith List Lia Bool Arith ZifyBool ZifyNat.
From Verif Require Import Base BaseProofs AttModel.
Import ListNotations.
Open Scope Z_scope.

(** ** Specification: a map from (entity, attribute) to values. *)
Inductive aval := AInt (z : Z) | ADbl (d : Z) | APtr (p : ptr) | AVec (d : list Z).

Inductive aop :=
| ASet (e a ival lval : Z) (pval : ptr)
| ACopy (e a e' a' : Z)          (* get (e',a') and set (e,a) to what was returned *)
| ARem (e a : Z) | AClear (e a : Z) | ARemAll (e : Z)
| AWrite (p : ptr) (d : list Z). (* the caller changes a block of its own *)

Definition amap := (Z -> Z -> option aval).
Definition mset (m : amap) (e a : Z) (v : option aval) : amap := fun x y => if (x =? e) && (y =? a) then v else m x y.

(** Type and shape of the values of an attribute. *)
Definition typed (adef : Z -> atype * Z) (a : Z) (v : aval) : Prop :=
  match fst (adef a), v with
  | TINT, AInt _ | TDOUBLE, ADbl _ | TPOINTER, APtr _ => True
  | TVECTOR, AVec d | TTENSOR, AVec d => Z.of_nat (length d) = snd (adef a)
  | _, _ => False
  end.

(** The value passed in a call: which argument counts depends on the type;
    vectors are read from the caller's block.  [cb]: the caller's blocks. *)
Definition arg_val (adef : Z -> atype * Z) (cb : Z -> option (list Z)) (a ival lval : Z) (pval : ptr) : option aval :=
  match fst (adef a) with
  | TINT => Some (AInt ival)
  | TDOUBLE => Some (ADbl lval)
  | TPOINTER => Some (APtr pval)
  | TVECTOR | TTENSOR =>
      match cb pval with
      | Some d => if snd (adef a) <=? Z.of_nat (length d) then Some (AVec (firstn (Z.to_nat (snd (adef a))) d)) else None
      | None => None
      end
  end.

Definition zero_val (t : atype) : option aval :=
  match t with TINT => Some (AInt 0) | TDOUBLE => Some (ADbl 0) | TPOINTER => Some (APtr NULL) | _ => None end.

(** Caller's blocks are at negative addresses (any addresses distinct from those
    malloc gives to the library would do). *)
Inductive aspec (adef : Z -> atype * Z) : amap * (Z -> option (list Z)) -> list aop -> amap * (Z -> option (list Z)) -> Prop :=
| as_nil : forall s, aspec adef s [] s
| as_set : forall m cb e a i l p v ops s, arg_val adef cb a i l p = Some v ->
    aspec adef (mset m e a (Some v), cb) ops s -> aspec adef (m, cb) (ASet e a i l p :: ops) s
| as_copy : forall m cb e a e' a' v ops s, adef a = adef a' -> m e' a' = Some v ->
    aspec adef (mset m e a (Some v), cb) ops s -> aspec adef (m, cb) (ACopy e a e' a' :: ops) s
| as_rem : forall m cb e a ops s, aspec adef (mset m e a None, cb) ops s -> aspec adef (m, cb) (ARem e a :: ops) s
| as_clear_none : forall m cb e a ops s, m e a = None ->
    aspec adef (m, cb) ops s -> aspec adef (m, cb) (AClear e a :: ops) s
| as_clear : forall m cb e a v z ops s, m e a = Some v -> zero_val (fst (adef a)) = Some z ->
    aspec adef (mset m e a (Some z), cb) ops s -> aspec adef (m, cb) (AClear e a :: ops) s
| as_remall : forall m cb e ops s, aspec adef (fun x y => if x =? e then None else m x y, cb) ops s ->
    aspec adef (m, cb) (ARemAll e :: ops) s
| as_write : forall m cb p d ops s, p < 0 -> aspec adef (m, zupd cb p (Some d)) ops s -> aspec adef (m, cb) (AWrite p d :: ops) s.

Definition astep (adef : Z -> atype * Z) (m : amem) (o : aop) : result amem :=
  match o with
  | ASet e a i l p => MEnt_Set_AttVal adef m e a i l p
  | ACopy e a e' a' => '(st, i, l, p) <- MEnt_Get_AttVal adef m e' a' ;; MEnt_Set_AttVal adef m e a i l p
  | ARem e a => MEnt_Rem_AttVal adef m e a
  | AClear e a => MEnt_Clear_AttVal adef m e a
  | ARemAll e => MEnt_Rem_AllAttVals adef m e
  | AWrite p d => Ok (set_ablk m (zupd (a_blk m) p (Some d)))
  end.
Fixpoint arun (adef : Z -> atype * Z) (m : amem) (ops : list aop) : result amem :=
  match ops with [] => Ok m | o :: t => m <- astep adef m o ;; arun adef m t end.

Definition a_empty : amem := mkA (fun _ => None) (fun _ => None) (fun _ => None) 1.

(** What MEnt_Get_AttVal has to return for a value (or none). *)
Definition shows (m : amem) (v : option aval) (out : Z * Z * Z * ptr) : Prop :=
  match v with
  | None => out = (0, 0, 0, NULL)
  | Some (AInt z) => out = (1, z, 0, NULL)
  | Some (ADbl d) => out = (1, 0, d, NULL)
  | Some (APtr p) => out = (1, 0, 0, p)
  | Some (AVec d) => exists p, out = (1, 0, 0, p) /\ a_blk m p = Some d
  end.

(** ** Invariant *)
Lemma zupd_same : forall A (f : Z -> A) k v, zupd f k v k = v.
Proof. intros. unfold zupd. rewrite Z.eqb_refl. auto. Qed.
Lemma zupd_other : forall A (f : Z -> A) k v x, x <> k -> zupd f k v x = f x.
Proof. intros. unfold zupd. replace (x =? k) with false by lia. auto. Qed.

Lemma NoDup_app_intro' : forall A (a b : list A), NoDup a -> NoDup b -> (forall x, In x a -> ~ In x b) -> NoDup (a ++ b).
Proof.
  induction a as [|x a IH]; intros b Na Nb D; auto. inversion Na. subst. cbn [app]. constructor.
  - intro X. apply in_app_or in X. destruct X; auto. apply (D x); auto. left; auto.
  - apply IH; auto. intros y Y. apply D. right; auto.
Qed.

Section Inv.
  Variable adef : Z -> atype * Z.

  Definition lst (m : amem) (e : Z) : list ptr := match a_list m e with Some l => l | None => [] end.

  (** [u] in the union of an instance of attribute [a] stands for [v]. *)
  Definition vrep (m : amem) (a : Z) (u : uval) (v : aval) : Prop :=
    match fst (adef a) with
    | TINT => exists z, u = UInt z /\ v = AInt z
    | TDOUBLE => exists z, u = UDbl z /\ v = ADbl z
    | TPOINTER => exists p, u = UPtr p /\ v = APtr p
    | TVECTOR | TTENSOR => exists p d, u = UPtr p /\ v = AVec d /\ 0 < p < a_next m /\ a_blk m p = Some d /\ Z.of_nat (length d) = snd (adef a)
    end.

  Definition isvec (a : Z) : bool := match fst (adef a) with TVECTOR | TTENSOR => true | _ => false end.

  Record ainv (m : amem) (s : amap) (cb : Z -> option (list Z)) : Prop := mkAInv {
    ai_next : 0 < a_next m;
    ai_cb1 : forall p d, cb p = Some d -> p < 0 /\ a_blk m p = Some d;
    ai_nd : forall e, NoDup (lst m e);
    ai_disj : forall e e' x, In x (lst m e) -> In x (lst m e') -> e = e';
    ai_in : forall e x, In x (lst m e) -> 0 < x < a_next m /\
              exists a u v, a_ins m x = Some (mkAI a u) /\ vrep m a u v /\ s e a = Some v;
    ai_att : forall e x y a u u', In x (lst m e) -> In y (lst m e) -> a_ins m x = Some (mkAI a u) -> a_ins m y = Some (mkAI a u') -> x = y;
    ai_all : forall e a v, s e a = Some v -> exists x u, In x (lst m e) /\ a_ins m x = Some (mkAI a u);
    ai_blk : forall e e' x y a a' p, In x (lst m e) -> In y (lst m e') ->
               a_ins m x = Some (mkAI a (UPtr p)) -> a_ins m y = Some (mkAI a' (UPtr p)) -> isvec a = true -> isvec a' = true -> x = y
  }.

  Lemma find_none : forall m l a i, (forall x, In x l -> exists b u, a_ins m x = Some (mkAI b u) /\ b <> a) ->
    att_find m l a i = Ok None.
  Proof.
    induction l as [|x l IH]; intros a i H; auto. cbn [att_find].
    destruct (H x) as [b [u [E N]]]; [left; auto|]. unfold iget. rewrite E. cbn [bind ai_attrib].
    replace (b =? a) with false by lia. apply IH. intros. apply H. right; auto.
  Qed.

  Lemma find_some : forall m l a i x u, (forall x, In x l -> exists b u, a_ins m x = Some (mkAI b u)) ->
    (forall x y a u u', In x l -> In y l -> a_ins m x = Some (mkAI a u) -> a_ins m y = Some (mkAI a u') -> x = y) ->
    NoDup l -> In x l -> a_ins m x = Some (mkAI a u) ->
    exists l1 l2, l = l1 ++ x :: l2 /\ att_find m l a i = Ok (Some (i + Z.of_nat (length l1), x)).
  Proof.
    induction l as [|y l IH]; intros a i x u H U N I E; [destruct I|]. cbn [att_find].
    destruct (H y) as [b [w F]]; [left; auto|]. unfold iget at 1. rewrite F. cbn [bind ai_attrib].
    destruct (b =? a) eqn:Eb.
    - assert (y = x). { apply (U y x a w u); auto; [left; auto|]. replace a with b by lia. auto. }
      subst y. exists [], l. split; auto. cbn [length]. do 3 f_equal. lia.
    - destruct I as [I|I]; [subst y; rewrite F in E; inversion E; lia|].
      inversion N. subst. destruct (IH a (i + 1) x u) as [l1 [l2 [A B]]]; auto.
      { intros. apply H. right; auto. } { intros z z'. intros. apply (U z z' a0 u0 u'); auto; right; auto. }
      exists (y :: l1), l2. split; [subst l; auto|]. rewrite B. do 3 f_equal. cbn [length]. lia.
  Qed.

  (** Searching under the invariant. *)
  Lemma find_inv : forall m s cb e a i, ainv m s cb ->
    (s e a = None /\ att_find m (lst m e) a i = Ok None /\ forall x b u, In x (lst m e) -> a_ins m x = Some (mkAI b u) -> b <> a) \/
    (exists v x u l1 l2, s e a = Some v /\ a_ins m x = Some (mkAI a u) /\ vrep m a u v /\ lst m e = l1 ++ x :: l2 /\
       att_find m (lst m e) a i = Ok (Some (i + Z.of_nat (length l1), x))).
  Proof.
    intros m s cb e a i I. destruct (s e a) as [v|] eqn:E.
    - right. destruct (ai_all _ _ _ I _ _ _ E) as [x [u [J F]]].
      destruct (find_some m (lst m e) a i x u) as [l1 [l2 [A B]]]; auto.
      + intros y Y. destruct (ai_in _ _ _ I _ _ Y) as [_ [b [w [v' [P _]]]]]. eauto.
      + intros y z b w w' Y Z0. apply (ai_att _ _ _ I e); auto.
      + apply (ai_nd _ _ _ I).
      + exists v, x, u, l1, l2. split; auto. split; auto. split; [|auto].
        destruct (ai_in _ _ _ I _ _ J) as [_ [b [w [v' [P [Q R]]]]]]. rewrite F in P. inversion P. subst b w. congruence.
    - left. split; auto. assert (X : forall x b u, In x (lst m e) -> a_ins m x = Some (mkAI b u) -> b <> a).
      { intros x b u J F Y. subst b. destruct (ai_in _ _ _ I _ _ J) as [_ [b [w [v' [P [Q R]]]]]]. rewrite F in P. inversion P. subst b w. congruence. }
      split; auto. apply find_none. intros x J. destruct (ai_in _ _ _ I _ _ J) as [_ [b [w [v' [P [Q R]]]]]]. exists b, w. split; auto.
      apply (X x b w); auto.
  Qed.

  Lemma vrep_mono : forall m m' a u v, vrep m a u v -> a_next m <= a_next m' ->
    (forall p, 0 < p < a_next m -> isvec a = true -> u = UPtr p -> a_blk m' p = a_blk m p) -> vrep m' a u v.
  Proof.
    intros m m' a u v R L B. unfold vrep, isvec in *. destruct (fst (adef a)); auto.
    - destruct R as [p [d [R1 [R2 [R3 [R4 R5]]]]]]. exists p, d. rewrite B by auto. intuition lia.
    - destruct R as [p [d [R1 [R2 [R3 [R4 R5]]]]]]. exists p, d. rewrite B by auto. intuition lia.
  Qed.

  Lemma vrep_fun : forall m a u v v', vrep m a u v -> vrep m a u v' -> v = v'.
  Proof.
    intros m a u v v' A B. unfold vrep in *. destruct (fst (adef a)).
    - destruct A as [x [A1 A2]], B as [y [B1 B2]]. congruence.
    - destruct A as [x [A1 A2]], B as [y [B1 B2]]. congruence.
    - destruct A as [x [A1 A2]], B as [y [B1 B2]]. congruence.
    - destruct A as [x [d [A1 [A2 [A3 [A4 A5]]]]]], B as [y [d' [B1 [B2 [B3 [B4 B5]]]]]]. congruence.
    - destruct A as [x [d [A1 [A2 [A3 [A4 A5]]]]]], B as [y [d' [B1 [B2 [B3 [B4 B5]]]]]]. congruence.
  Qed.

  (** The argument of a set: a value for the attribute, given by the arguments;
      vectors come from any live block. *)
  Definition argrep (m : amem) (a i l : Z) (p : ptr) (v : aval) : Prop :=
    match fst (adef a) with
    | TINT => v = AInt i
    | TDOUBLE => v = ADbl l
    | TPOINTER => v = APtr p
    | TVECTOR | TTENSOR => exists d, a_blk m p = Some d /\ snd (adef a) <= Z.of_nat (length d) /\ 0 <= snd (adef a) /\ v = AVec (firstn (Z.to_nat (snd (adef a))) d)
    end.

  (** Setting the value of an instance: frame and new value. *)
  Lemma setval_ok : forall m x a u i l p v, a_ins m x = Some (mkAI a u) -> argrep m a i l p v -> 0 < a_next m ->
    exists m' u', MAttIns_Set_Value adef m x i l p = Ok m' /\ a_list m' = a_list m /\ a_next m <= a_next m' /\
      a_ins m' x = Some (mkAI a u') /\ (forall y, y <> x -> a_ins m' y = a_ins m y) /\
      (forall q, q < a_next m -> a_blk m' q = a_blk m q) /\ vrep m' a u' v /\
      (isvec a = true -> exists q, u' = UPtr q /\ a_next m <= q).
  Proof.
    intros m x a u i l p v E R P. unfold MAttIns_Set_Value, iget. rewrite E. cbn [bind ai_attrib].
    unfold argrep, vrep, isvec in *. destruct (adef a) as [t n] eqn:D. cbn [fst snd] in *. destruct t.
    - eexists. exists (UInt i). split; [reflexivity|]. cbn. split; auto. split; [lia|]. rewrite zupd_same. split; auto.
      split; [intros; apply zupd_other; auto|]. split; auto. split; [exists i; auto|discriminate].
    - eexists. exists (UDbl l). split; [reflexivity|]. cbn. split; auto. split; [lia|]. rewrite zupd_same. split; auto.
      split; [intros; apply zupd_other; auto|]. split; auto. split; [exists l; auto|discriminate].
    - eexists. exists (UPtr p). split; [reflexivity|]. cbn. split; auto. split; [lia|]. rewrite zupd_same. split; auto.
      split; [intros; apply zupd_other; auto|]. split; auto. split; [exists p; auto|discriminate].
    - destruct R as [d [R1 [R2 [R3 R4]]]]. unfold copy_block. rewrite R1. replace (Z.of_nat (length d) <? n) with false by lia. cbn [bind].
      eexists. exists (UPtr (a_next m)). split; [reflexivity|]. cbn. split; auto. split; [lia|]. rewrite zupd_same. split; auto.
      split; [intros; apply zupd_other; auto|]. split; [intros; apply zupd_other; lia|]. split; [|eauto with zarith].
      exists (a_next m), (firstn (Z.to_nat n) d). rewrite zupd_same. split; auto. split; auto. split; [lia|]. split; auto. rewrite firstn_length. lia.
    - destruct R as [d [R1 [R2 [R3 R4]]]]. unfold copy_block. rewrite R1. replace (Z.of_nat (length d) <? n) with false by lia. cbn [bind].
      eexists. exists (UPtr (a_next m)). split; [reflexivity|]. cbn. split; auto. split; [lia|]. rewrite zupd_same. split; auto.
      split; [intros; apply zupd_other; auto|]. split; [intros; apply zupd_other; lia|]. split; [|eauto with zarith].
      exists (a_next m), (firstn (Z.to_nat n) d). rewrite zupd_same. split; auto. split; auto. split; [lia|]. split; auto. rewrite firstn_length. lia.
  Qed.

  (** Setting an attached instance keeps the invariant. *)
  Lemma setval_inv : forall m s cb e x a u i l p v, ainv m s cb -> In x (lst m e) -> a_ins m x = Some (mkAI a u) ->
    argrep m a i l p v -> exists m', MAttIns_Set_Value adef m x i l p = Ok m' /\ ainv m' (mset s e a (Some v)) cb.
  Proof.
    intros m s cb e x a u i l p v I X E R.
    destruct (setval_ok m x a u i l p v E R (ai_next _ _ _ I)) as [m' [u' [S1 [S2 [S3 [S4 [S5 [S6 [S7 S8]]]]]]]]].
    exists m'. split; auto.
    assert (L : forall e, lst m' e = lst m e) by (intro; unfold lst; rewrite S2; auto).
    assert (G : forall y b w, a_ins m' y = Some (mkAI b w) -> exists w', a_ins m y = Some (mkAI b w')).
    { intros y b w Y. destruct (Z.eq_dec y x); [subst y; rewrite S4 in Y; inversion Y; subst; eauto|rewrite S5 in Y; eauto]. }
    constructor.
    - pose proof (ai_next _ _ _ I). lia.
    - intros q d C. destruct (ai_cb1 _ _ _ I _ _ C) as [C1 C2]. split; auto. rewrite S6; auto. pose proof (ai_next _ _ _ I). lia.
    - intros. rewrite L. apply (ai_nd _ _ _ I).
    - intros e1 e2 y. rewrite !L. apply (ai_disj _ _ _ I).
    - intros e1 y Y. rewrite L in Y. destruct (ai_in _ _ _ I _ _ Y) as [B [b [w [v' [P1 [P2 P3]]]]]]. split; [lia|].
      destruct (Z.eq_dec y x).
      + subst y. rewrite E in P1. inversion P1. subst b w. exists a, u', v. split; auto. split; auto.
        assert (e1 = e) by (apply (ai_disj _ _ _ I e1 e x); auto). subst e1. unfold mset. rewrite !Z.eqb_refl. auto.
      + exists b, w, v'. rewrite S5 by auto. split; auto. split.
        * apply (vrep_mono m m'); auto. intros. apply S6. lia.
        * unfold mset. destruct ((e1 =? e) && (b =? a)) eqn:T; auto. exfalso. apply n.
          assert (e1 = e) by lia. assert (b = a) by lia. subst. apply (ai_att _ _ _ I e y x a w u); auto.
    - intros e1 y z b w w'. rewrite !L. intros Y1 Y2 Y3 Y4. destruct (G _ _ _ Y3) as [w1 Y5]. destruct (G _ _ _ Y4) as [w2 Y6].
      apply (ai_att _ _ _ I e1 y z b w1 w2); auto.
    - intros e1 b v' V. rewrite L. unfold mset in V. destruct ((e1 =? e) && (b =? a)) eqn:T.
      + assert (e1 = e) by lia. assert (b = a) by lia. subst. exists x, u'. auto.
      + destruct (ai_all _ _ _ I _ _ _ V) as [y [w [Y1 Y2]]]. destruct (Z.eq_dec y x).
        * subst y. rewrite E in Y2. inversion Y2. subst. exists x, u'. auto.
        * exists y, w. rewrite S5; auto.
    - intros e1 e2 y z b b' q. rewrite !L. intros Y1 Y2 Y3 Y4 V1 V2.
      assert (OLD : forall e0 y0 b0, In y0 (lst m e0) -> y0 <> x -> a_ins m' y0 = Some (mkAI b0 (UPtr q)) -> isvec b0 = true -> q < a_next m).
      { intros e0 y0 b0 O1 O2 O3 O4. rewrite S5 in O3 by auto. destruct (ai_in _ _ _ I _ _ O1) as [_ [b1 [w1 [v1 [P1 [P2 _]]]]]].
        rewrite O3 in P1. inversion P1. subst b1 w1. unfold vrep, isvec in *.
        destruct (fst (adef b0)); try discriminate; destruct P2 as [q' [d [Q1 [_ [Q2 _]]]]]; inversion Q1; subst; lia. }
      destruct (Z.eq_dec y x), (Z.eq_dec z x); try congruence.
      + subst y. rewrite S4 in Y3. inversion Y3. subst b u'. destruct (S8 V1) as [q' [Q1 Q2]]. inversion Q1. subst q'.
        pose proof (OLD e2 z b' Y2 n Y4 V2). lia.
      + subst z. rewrite S4 in Y4. inversion Y4. subst b' u'. destruct (S8 V2) as [q' [Q1 Q2]]. inversion Q1. subst q'.
        pose proof (OLD e1 y b Y1 n Y3 V1). lia.
      + rewrite S5 in Y3, Y4 by auto. apply (ai_blk _ _ _ I e1 e2 y z b b' q); auto.
  Qed.

  Lemma set_inv : forall m s cb e a i l p v, ainv m s cb -> argrep m a i l p v ->
    exists m', MEnt_Set_AttVal adef m e a i l p = Ok m' /\ ainv m' (mset s e a (Some v)) cb.
  Proof.
    intros m s cb e a i l p v I R. unfold MEnt_Set_AttVal. fold (lst m e).
    destruct (find_inv m s cb e a 0 I) as [[N [F X]]|[v0 [x [u [l1 [l2 [V [E [W [L F]]]]]]]]]].
    - rewrite F. cbn [bind]. cbn [MAttIns_New]. set (x := a_next m).
      set (m1 := set_alist _ _).
      assert (IX : a_ins m1 x = Some (mkAI a (UPtr NULL))) by (cbn; apply zupd_same).
      pose proof (ai_next _ _ _ I) as NX.
      assert (LE : lst m1 e = lst m e ++ [x]). { unfold lst at 1. cbn [m1 set_alist a_list]. rewrite zupd_same. auto. }
      assert (LO : forall e', e' <> e -> lst m1 e' = lst m e'). { intros. unfold lst. cbn. rewrite zupd_other; auto. }
      assert (FR : forall e', ~ In x (lst m e')). { intros e' J. apply (ai_in _ _ _ I) in J. unfold x in J. lia. }
      assert (IO : forall y, y <> x -> a_ins m1 y = a_ins m y). { intros. cbn. apply zupd_other; auto. }
      destruct (setval_ok m1 x a (UPtr NULL) i l p v IX) as [m' [u' [S1 [S2 [S3 [S4 [S5 [S6 [S7 S8]]]]]]]]]; [exact R|cbn; lia|].
      exists m'. split; auto. clear F.
      assert (L : forall e, lst m' e = lst m1 e) by (intro; unfold lst; rewrite S2; auto).
      assert (INC : forall e' y, In y (lst m' e') -> (y = x /\ e' = e) \/ (In y (lst m e') /\ y <> x)).
      { intros e' y J. rewrite L in J. destruct (Z.eq_dec e' e).
        - subst e'. rewrite LE in J. apply in_app_or in J. destruct J as [J|[J|[]]]; auto. right. split; auto. intro; subst y. apply (FR e); auto.
        - rewrite LO in J by auto. right. split; auto. intro; subst y. apply (FR e'); auto. }
      assert (OL : forall y, y <> x -> a_ins m' y = a_ins m y). { intros. rewrite S5 by auto. auto. }
      assert (S3' : a_next m < a_next m') by (cbn in S3; lia).
      assert (INCR : forall e' y, In y (lst m e') -> In y (lst m' e')).
      { intros e' y J. rewrite L. destruct (Z.eq_dec e' e); [subst; rewrite LE; apply in_or_app; auto|rewrite LO; auto]. }
      constructor.
      + lia.
      + intros q d C. destruct (ai_cb1 _ _ _ I _ _ C) as [C1 C2]. split; auto. rewrite S6 by (cbn; lia). auto.
      + intros e'. rewrite L. destruct (Z.eq_dec e' e).
        * subst. rewrite LE. apply NoDup_app_intro'.
          -- apply (ai_nd _ _ _ I).
          -- constructor; auto. constructor.
          -- intros z Z1 [Z2|[]]. subst z. apply (FR e); auto.
        * rewrite LO by auto. apply (ai_nd _ _ _ I).
      + intros e1 e2 y Y1 Y2. destruct (INC _ _ Y1) as [[A1 A2]|[A1 A2]], (INC _ _ Y2) as [[B1 B2]|[B1 B2]]; try congruence.
        apply (ai_disj _ _ _ I e1 e2 y); auto.
      + intros e1 y Y. destruct (INC _ _ Y) as [[A1 A2]|[A1 A2]].
        * subst. split; [unfold x; lia|]. exists a, u', v. split; auto. split; auto. unfold mset. rewrite !Z.eqb_refl. auto.
        * destruct (ai_in _ _ _ I _ _ A1) as [B [b [w [v' [P1 [P2 P3]]]]]]. split; [lia|]. exists b, w, v'. rewrite OL by auto.
          split; auto. split. { apply (vrep_mono m m'); auto; [lia|]. intros. rewrite S6 by (cbn; lia). auto. }
          unfold mset. destruct ((e1 =? e) && (b =? a)) eqn:T; auto. exfalso. assert (e1 = e) by lia. subst e1. apply (X y b w A1 P1). lia.
      + intros e1 y z b w w' Y1 Y2 Y3 Y4. destruct (INC _ _ Y1) as [[A1 A2]|[A1 A2]], (INC _ _ Y2) as [[B1 B2]|[B1 B2]]; try congruence.
        * subst. rewrite S4 in Y3. inversion Y3. subst. rewrite OL in Y4 by auto. exfalso. apply (X z b w' B1 Y4). auto.
        * subst. rewrite S4 in Y4. inversion Y4. subst. rewrite OL in Y3 by auto. exfalso. apply (X y b w A1 Y3). auto.
        * rewrite OL in Y3, Y4 by auto. apply (ai_att _ _ _ I e1 y z b w w'); auto.
      + intros e1 b v' V. unfold mset in V. destruct ((e1 =? e) && (b =? a)) eqn:T.
        * assert (e1 = e) by lia. assert (b = a) by lia. subst. exists x, u'. split; auto. rewrite L, LE. apply in_or_app. right. left. auto.
        * destruct (ai_all _ _ _ I _ _ _ V) as [y [w [Y1 Y2]]]. exists y, w. split; auto. rewrite OL; auto. intro; subst y. apply (FR e1); auto.
      + assert (OLD : forall e0 y0 b0 q, In y0 (lst m e0) -> y0 <> x -> a_ins m' y0 = Some (mkAI b0 (UPtr q)) -> isvec b0 = true -> q < a_next m).
        { intros e0 y0 b0 q O1 O2 O3 O4. rewrite OL in O3 by auto. destruct (ai_in _ _ _ I _ _ O1) as [_ [b1 [w1 [v1 [P1 [P2 _]]]]]].
          rewrite O3 in P1. inversion P1. subst b1 w1. unfold vrep, isvec in *.
          destruct (fst (adef b0)); try discriminate; destruct P2 as [q' [d [Q1 [_ [Q2 _]]]]]; inversion Q1; subst; lia. }
        intros e1 e2 y z b b' q Y1 Y2 Y3 Y4 V1 V2. destruct (INC _ _ Y1) as [[A1 A2]|[A1 A2]], (INC _ _ Y2) as [[B1 B2]|[B1 B2]]; try congruence.
        * subst y e1. rewrite S4 in Y3. inversion Y3. subst b u'. destruct (S8 V1) as [q' [Q1 Q2]]. inversion Q1. subst q'.
          pose proof (OLD e2 z b' q B1 B2 Y4 V2). cbn in Q2. lia.
        * subst z e2. rewrite S4 in Y4. inversion Y4. subst b' u'. destruct (S8 V2) as [q' [Q1 Q2]]. inversion Q1. subst q'.
          pose proof (OLD e1 y b q A1 A2 Y3 V1). cbn in Q2. lia.
        * rewrite OL in Y3, Y4 by auto. apply (ai_blk _ _ _ I e1 e2 y z b b' q); auto.
    - rewrite F. cbn [bind]. apply (setval_inv m s cb e x a u); auto. rewrite L. apply in_or_app. right; left; auto.
  Qed.

  Lemma ainv_lst : forall m m' s cb, ainv m s cb -> (forall e, lst m' e = lst m e) -> a_ins m' = a_ins m -> a_blk m' = a_blk m -> a_next m' = a_next m ->
    ainv m' s cb.
  Proof.
    intros m m' s cb I L A B N. destruct I as [I1 I2 I3 I4 I5 I6 I7 I8]. constructor.
    - lia.
    - intros. rewrite B. auto.
    - intros e. rewrite L. auto.
    - intros e e' x. rewrite !L. apply I4.
    - intros e x J. rewrite L in J. rewrite A, N. destruct (I5 _ _ J) as [P [a [u [v [Q1 [Q2 Q3]]]]]]. split; auto. exists a, u, v. split; auto. split; auto.
      apply (vrep_mono m m'); auto; [lia|]. intros. rewrite B. auto.
    - intros e x y a u u'. rewrite !L, A. apply I6.
    - intros e a v V. rewrite L, A. apply (I7 e a v V).
    - intros e e' x y a a' q. rewrite !L, A. apply I8.
  Qed.

  Lemma del_inv : forall m s cb e a x u l1 l2 f, ainv m s cb -> lst m e = l1 ++ x :: l2 -> a_ins m x = Some (mkAI a u) ->
    (match f e with Some l => l | None => [] end) = l1 ++ l2 -> (forall e', e' <> e -> f e' = a_list m e') ->
    exists m', MAttIns_Delete adef (set_alist m f) x = Ok m' /\ a_list m' = f /\ ainv m' (mset s e a None) cb.
  Proof.
    intros m s cb e a x u l1 l2 f I L E Fe Fo.
    assert (J : In x (lst m e)) by (rewrite L; apply in_or_app; right; left; auto).
    destruct (ai_in _ _ _ I _ _ J) as [B [b [w [v [P1 [P2 P3]]]]]]. rewrite E in P1. inversion P1. subst b w. clear P1.
    pose proof (ai_nd _ _ _ I e) as ND. rewrite L in ND. pose proof (NoDup_remove_1 _ _ _ ND) as ND1. pose proof (NoDup_remove_2 _ _ _ ND) as ND2.
    assert (M : exists m', MAttIns_Delete adef (set_alist m f) x = Ok m' /\ a_list m' = f /\ a_ins m' = zupd (a_ins m) x None /\ a_next m' = a_next m /\
      (forall q, (isvec a = false \/ u <> UPtr q) -> a_blk m' q = a_blk m q) /\ (isvec a = true -> exists q, u = UPtr q /\ 0 < q)).
    { unfold MAttIns_Delete, iget. cbn [set_alist a_ins]. rewrite E. cbn [bind ai_attrib ai_val]. unfold vrep, isvec in *.
      destruct (fst (adef a)); cbn [bind].
      1-3: eexists; (split; [reflexivity|]); cbn; repeat split; auto; discriminate.
      1-2: destruct P2 as [q [d [Q1 [Q2 [Q3 [Q4 Q5]]]]]]; subst u; replace (q =? NULL) with false by (unfold NULL; lia); cbn [negb set_alist a_blk]; rewrite Q4; cbn [bind];
        eexists; (split; [reflexivity|]); cbn; repeat split; auto; [intros q0 [X|X]; [discriminate|]; apply zupd_other; congruence|intros _; exists q; split; auto; lia]. }
    destruct M as [m' [M1 [M2 [M3 [M4 [M5 M6]]]]]]. exists m'. split; auto. split; auto.
    assert (LE : lst m' e = l1 ++ l2) by (unfold lst; rewrite M2; auto).
    assert (LO : forall e', e' <> e -> lst m' e' = lst m e') by (intros; unfold lst; rewrite M2, Fo; auto).
    assert (INC : forall e' y, In y (lst m' e') -> In y (lst m e') /\ y <> x).
    { intros e' y Y. destruct (Z.eq_dec e' e).
      - subst. rewrite LE in Y. split; [rewrite L; apply in_app_or in Y; apply in_or_app; simpl; tauto|]. intro; subst; auto.
      - rewrite LO in Y by auto. split; auto. intro; subst y. apply n. apply (ai_disj _ _ _ I e' e x); auto. }
    assert (INR : forall e' y, In y (lst m e') -> y <> x -> In y (lst m' e')).
    { intros e' y Y N. destruct (Z.eq_dec e' e).
      - subst. rewrite LE. rewrite L in Y. apply in_app_or in Y. apply in_or_app. simpl in Y. intuition congruence.
      - rewrite LO; auto. }
    assert (IO : forall y, y <> x -> a_ins m' y = a_ins m y) by (intros; rewrite M3; apply zupd_other; auto).
    constructor.
    - rewrite M4. apply (ai_next _ _ _ I).
    - intros q d C. destruct (ai_cb1 _ _ _ I _ _ C) as [C1 C2]. split; auto. rewrite M5; auto. destruct (isvec a); auto. right.
      destruct M6 as [q' [Q1 Q2]]; auto. subst u. intro Q. inversion Q. lia.
    - intros e'. destruct (Z.eq_dec e' e); [subst; rewrite LE; auto|rewrite LO by auto; apply (ai_nd _ _ _ I)].
    - intros e1 e2 y Y1 Y2. apply INC in Y1, Y2. apply (ai_disj _ _ _ I e1 e2 y); tauto.
    - intros e1 y Y. apply INC in Y. destruct Y as [Y N]. rewrite IO, M4 by auto. destruct (ai_in _ _ _ I _ _ Y) as [B' [b [w [v' [R1 [R2 R3]]]]]]. split; auto.
      exists b, w, v'. split; auto. split.
      + apply (vrep_mono m m'); auto; [lia|]. intros q Q1 Q2 Q3. apply M5. destruct (isvec a) eqn:IV; auto. right. intro Q4. apply N. subst w u.
        apply (ai_blk _ _ _ I e1 e y x b a q); auto.
      + unfold mset. destruct ((e1 =? e) && (b =? a)) eqn:T; auto. exfalso. apply N. assert (e1 = e) by lia. assert (b = a) by lia. subst.
        apply (ai_att _ _ _ I e y x a w u); auto.
    - intros e1 y z b w w' Y1 Y2 Y3 Y4. apply INC in Y1, Y2. destruct Y1, Y2. rewrite IO in Y3, Y4 by auto. apply (ai_att _ _ _ I e1 y z b w w'); auto.
    - intros e1 b v' V. unfold mset in V. destruct ((e1 =? e) && (b =? a)) eqn:T; [discriminate|].
      destruct (ai_all _ _ _ I _ _ _ V) as [y [w [Y1 Y2]]]. assert (y <> x).
      { intro; subst y. rewrite E in Y2. inversion Y2. assert (e1 = e) by (apply (ai_disj _ _ _ I e1 e x); auto). lia. }
      exists y, w. split; auto. rewrite IO; auto.
    - intros e1 e2 y z b b' q Y1 Y2 Y3 Y4. apply INC in Y1, Y2. destruct Y1, Y2. rewrite IO in Y3, Y4 by auto. apply (ai_blk _ _ _ I e1 e2 y z b b' q); auto.
  Qed.

  Lemma mset_none : forall m s cb e a, ainv m s cb -> s e a = None -> ainv m (mset s e a None) cb.
  Proof.
    intros m s cb e a I N. assert (X : forall e' a', mset s e a None e' a' = s e' a').
    { intros. unfold mset. destruct ((e' =? e) && (a' =? a)) eqn:T; auto. assert (e' = e) by lia. assert (a' = a) by lia. subst; auto. }
    destruct I as [I1 I2 I3 I4 I5 I6 I7 I8]. constructor; try assumption.
    - intros e' x J. destruct (I5 e' x J) as [P [b [u [v [Q1 [Q2 Q3]]]]]]. split; auto. exists b, u, v. rewrite X. auto.
    - intros e' b v. rewrite X. apply I7.
  Qed.

  Lemma ainv_ext : forall m s s' cb, ainv m s cb -> (forall e a, s' e a = s e a) -> ainv m s' cb.
  Proof.
    intros m s s' cb I X. destruct I as [I1 I2 I3 I4 I5 I6 I7 I8]. constructor; try assumption.
    - intros e' x J. destruct (I5 e' x J) as [P [b [u [v [Q1 [Q2 Q3]]]]]]. split; auto. exists b, u, v. rewrite X. auto.
    - intros e' b v. rewrite X. apply I7.
  Qed.

  Lemma rem_inv : forall m s cb e a, ainv m s cb -> exists m', MEnt_Rem_AttVal adef m e a = Ok m' /\ ainv m' (mset s e a None) cb.
  Proof.
    intros m s cb e a I. unfold MEnt_Rem_AttVal. pose proof (find_inv m s cb e a 0 I) as F. unfold lst in F.
    destruct (a_list m e) as [l|] eqn:E.
    - destruct F as [[N [F X]]|[v0 [x [u [l1 [l2 [V [EX [W [L F]]]]]]]]]]; rewrite F; cbn [bind].
      + exists m. split; auto. apply mset_none; auto.
      + destruct (del_inv m s cb e a x u l1 l2 (zupd (a_list m) e (Some (seq_remi l (0 + Z.of_nat (length l1)))))) as [m' [D1 [D2 D3]]]; auto.
        * unfold lst. rewrite E. auto.
        * rewrite zupd_same. unfold seq_remi. replace (Z.to_nat (0 + Z.of_nat (length l1))) with (length l1) by lia. subst l.
          rewrite firstn_app, firstn_all, Nat.sub_diag. cbn [firstn]. rewrite app_nil_r. f_equal.
          rewrite skipn_app. rewrite skipn_all2 by lia. replace (length l1 + 1 - length l1)%nat with 1%nat by lia. auto.
        * intros. apply zupd_other; auto.
        * exists m'. auto.
    - exists m. split; auto. apply mset_none; auto. destruct F as [[N _]|[v0 [x [u [l1 [l2 [V [EX [W [L F]]]]]]]]]]; auto. destruct l1; discriminate.
  Qed.

  Lemma delete_alist : forall m f g x m', MAttIns_Delete adef (set_alist m f) x = Ok m' ->
    MAttIns_Delete adef (set_alist m g) x = Ok (set_alist m' g).
  Proof.
    intros m f g x m' H. unfold MAttIns_Delete, iget in *. cbn [set_alist a_ins a_blk] in *. destruct (a_ins m x) as [i|]; cbn [bind] in *; [|discriminate].
    destruct (fst (adef (ai_attrib i))), (ai_val i); cbn [bind] in *; try discriminate; try (inversion H; reflexivity);
      destruct (negb (p =? NULL)); cbn [bind] in *; try (inversion H; reflexivity);
      destruct (a_blk m p); cbn [bind] in *; try discriminate; inversion H; reflexivity.
  Qed.

  Lemma set_alist_id : forall m, set_alist m (a_list m) = m.
  Proof. intros []. auto. Qed.

  Lemma del_all_inv : forall l m s cb e, ainv (set_alist m (zupd (a_list m) e (Some l))) s cb ->
    exists m', del_all adef m l = Ok m' /\ a_list m' = a_list m /\
      ainv (set_alist m' (zupd (a_list m) e (Some []))) (fun x y => if x =? e then None else s x y) cb.
  Proof.
    induction l as [|x l IH]; intros m s cb e I.
    - exists m. split; auto. split; auto. eapply ainv_ext; [exact I|]. intros e' a'. cbn. destruct (e' =? e) eqn:T; auto.
      destruct (s e' a') eqn:Es; auto. destruct (ai_all _ _ _ I _ _ _ Es) as [y [w [Y _]]]. unfold lst in Y. cbn in Y. replace e' with e in Y by lia. rewrite zupd_same in Y. destruct Y.
    - destruct (ai_in _ _ _ I e x) as [_ [a [u [v [P1 [P2 P3]]]]]]. { unfold lst; cbn. rewrite zupd_same. left; auto. }
      destruct (del_inv _ s cb e a x u [] l (zupd (a_list m) e (Some l)) I) as [m1 [D1 [D2 D3]]]; auto.
      { unfold lst; cbn. rewrite zupd_same. auto. } { rewrite zupd_same. auto. } { intros. cbn. rewrite !zupd_other; auto. }
      change (set_alist (set_alist m (zupd (a_list m) e (Some (x :: l)))) (zupd (a_list m) e (Some l))) with (set_alist m (zupd (a_list m) e (Some l))) in D1.
      pose proof (delete_alist _ _ (a_list m) _ _ D1) as D4. rewrite set_alist_id in D4.
      destruct (IH (set_alist m1 (a_list m)) (mset s e a None) cb e) as [m2 [E1 [E2 E3]]].
      { cbn. change (set_alist (set_alist m1 (a_list m)) ?f) with (set_alist m1 f). rewrite <- D2. rewrite set_alist_id. auto. }
      exists m2. cbn [del_all]. rewrite D4. cbn [bind]. split; auto. split; auto. cbn in E3. eapply ainv_ext; [exact E3|].
      intros e' a'. cbn. destruct (e' =? e) eqn:T; auto. unfold mset. rewrite T. auto.
  Qed.

  Lemma remall_inv : forall m s cb e, ainv m s cb ->
    exists m', MEnt_Rem_AllAttVals adef m e = Ok m' /\ ainv m' (fun x y => if x =? e then None else s x y) cb.
  Proof.
    intros m s cb e I. unfold MEnt_Rem_AllAttVals. destruct (a_list m e) as [l|] eqn:E.
    - destruct (del_all_inv l m s cb e) as [m' [D1 [D2 D3]]].
      { eapply ainv_lst; [exact I|..]; auto. intros e'. unfold lst. cbn. unfold zupd. destruct (e' =? e) eqn:T; auto. replace e' with e by lia. rewrite E. auto. }
      rewrite D1. cbn [bind]. eexists. split; [reflexivity|]. rewrite D2. eapply ainv_lst; [exact D3|..]; auto.
      intros e'. unfold lst. cbn. unfold zupd. destruct (e' =? e); auto.
    - exists m. split; auto. eapply ainv_ext; [exact I|]. intros e' a'. cbn. destruct (e' =? e) eqn:T; auto.
      destruct (s e' a') eqn:Es; auto. destruct (ai_all _ _ _ I _ _ _ Es) as [y [w [Y _]]]. unfold lst in Y. replace e' with e in Y by lia. rewrite E in Y. destruct Y.
  Qed.

  Lemma get_inv : forall m s cb e a, ainv m s cb -> exists out, MEnt_Get_AttVal adef m e a = Ok out /\ shows m (s e a) out /\
    (forall v, s e a = Some v -> exists i l p, out = (1, i, l, p) /\ argrep m a i l p v).
  Proof.
    intros m s cb e a I. unfold MEnt_Get_AttVal. pose proof (find_inv m s cb e a 0 I) as F. unfold lst in F.
    destruct (a_list m e) as [l|] eqn:E.
    - destruct F as [[N [F X]]|[v0 [x [u [l1 [l2 [V [EX [W [L F]]]]]]]]]]; rewrite F; cbn [bind].
      + exists (0, 0, 0, NULL). split; auto. rewrite N. split; [reflexivity|discriminate].
      + unfold MAttIns_Get_Value, iget. rewrite EX. cbn [bind ai_attrib ai_val]. rewrite V. unfold vrep, argrep in *.
        destruct (fst (adef a)).
        * destruct W as [z [-> ->]]. cbn [bind]. eexists. split; [reflexivity|]. split; [reflexivity|]. intros v H. inversion H. eauto.
        * destruct W as [z [-> ->]]. cbn [bind]. eexists. split; [reflexivity|]. split; [reflexivity|]. intros v H. inversion H. eauto.
        * destruct W as [z [-> ->]]. cbn [bind]. eexists. split; [reflexivity|]. split; [reflexivity|]. intros v H. inversion H. eauto.
        * destruct W as [q [d [-> [-> [W1 [W2 W3]]]]]]. cbn [bind]. eexists. split; [reflexivity|]. split; [exists q; auto|]. intros v H. inversion H.
          exists 0, 0, q. split; auto. exists d. split; auto. split; [lia|]. split; [lia|]. rewrite <- W3, Nat2Z.id, firstn_all. auto.
        * destruct W as [q [d [-> [-> [W1 [W2 W3]]]]]]. cbn [bind]. eexists. split; [reflexivity|]. split; [exists q; auto|]. intros v H. inversion H.
          exists 0, 0, q. split; auto. exists d. split; auto. split; [lia|]. split; [lia|]. rewrite <- W3, Nat2Z.id, firstn_all. auto.
    - exists (0, 0, 0, NULL). split; auto. destruct F as [[N _]|[v0 [x [u [l1 [l2 [V [EX [W [L F]]]]]]]]]]; [|destruct l1; discriminate].
      rewrite N. split; [reflexivity|discriminate].
  Qed.

  Lemma write_inv : forall m s cb p d, ainv m s cb -> p < 0 -> ainv (set_ablk m (zupd (a_blk m) p (Some d))) s (zupd cb p (Some d)).
  Proof.
    intros m s cb p d I P. destruct I as [I1 I2 I3 I4 I5 I6 I7 I8]. constructor; try assumption.
    - intros q d' C. cbn. unfold zupd in *. destruct (q =? p) eqn:T; [split; [lia|auto]|auto].
    - intros e x J. destruct (I5 e x J) as [B [b [u [v [Q1 [Q2 Q3]]]]]]. split; auto. exists b, u, v. split; auto. split; auto.
      apply (vrep_mono m); auto; [cbn; lia|]. intros q Q _ _. cbn. apply zupd_other. lia.
  Qed.

  Hypothesis ncomp_pos : forall a, 0 <= snd (adef a).

  Lemma arun_inv : forall ops m s cb s' cb', aspec adef (s, cb) ops (s', cb') -> ainv m s cb ->
    exists m', arun adef m ops = Ok m' /\ ainv m' s' cb'.
  Proof.
    intros ops m s cb s' cb' A. remember (s, cb) as st. remember (s', cb') as st'. revert m s cb Heqst s' cb' Heqst'.
    induction A; intros mm s0 cb0 E s0' cb0' E' I; try (inversion E; subst; clear E); cbn [arun astep].
    - rewrite E in E'. inversion E'. subst. exists mm. auto.
    - destruct (set_inv mm s0 cb0 e a i l p v I) as [m1 [S1 S2]].
      { unfold arg_val, argrep in *. destruct (fst (adef a)); try (inversion H; auto; fail).
        - destruct (cb0 p) as [d|] eqn:C; [|discriminate]. destruct (snd (adef a) <=? Z.of_nat (length d)) eqn:L; [|discriminate]. inversion H.
          exists d. split; [apply (ai_cb1 _ _ _ I _ _ C)|]. split; [lia|]. split; auto.
        - destruct (cb0 p) as [d|] eqn:C; [|discriminate]. destruct (snd (adef a) <=? Z.of_nat (length d)) eqn:L; [|discriminate]. inversion H.
          exists d. split; [apply (ai_cb1 _ _ _ I _ _ C)|]. split; [lia|]. split; auto. }
      rewrite S1. cbn [bind]. eapply IHA; eauto.
    - destruct (get_inv mm s0 cb0 e' a' I) as [out [G1 [_ G2]]]. destruct (G2 _ H0) as [i [l [p [-> G3]]]]. rewrite G1. cbn [bind].
      destruct (set_inv mm s0 cb0 e a i l p v I) as [m1 [S1 S2]]. { unfold argrep in *. rewrite H. auto. }
      rewrite S1. cbn [bind]. eapply IHA; eauto.
    - destruct (rem_inv mm s0 cb0 e a I) as [m1 [S1 S2]]. rewrite S1. cbn [bind]. eapply IHA; eauto.
    - unfold MEnt_Clear_AttVal. pose proof (find_inv mm s0 cb0 e a 0 I) as F. unfold lst in F. destruct (a_list mm e) as [l|]; cbn [bind].
      + destruct F as [[N [F X]]|[v0 [x [u [l1 [l2 [V _]]]]]]]; [|congruence]. rewrite F. cbn [bind]. eapply IHA; eauto.
      + eapply IHA; eauto.
    - unfold MEnt_Clear_AttVal. pose proof (find_inv mm s0 cb0 e a 0 I) as F. unfold lst in F. destruct (a_list mm e) as [l|] eqn:El; cbn [bind].
      + destruct F as [[N _]|[v0 [x [u [l1 [l2 [V [EX [W [L F]]]]]]]]]]; [congruence|]. rewrite F. cbn [bind].
        destruct (setval_inv mm s0 cb0 e x a u 0 0 NULL z I) as [m1 [S1 S2]]; auto.
        { unfold lst. rewrite El, L. apply in_or_app. right; left; auto. }
        { unfold argrep, zero_val in *. destruct (fst (adef a)); inversion H0; auto. }
        rewrite S1. cbn [bind]. eapply IHA; eauto.
      + destruct F as [[N _]|[v0 [x [u [l1 [l2 [V [EX [W [L F]]]]]]]]]]; [congruence|destruct l1; discriminate].
    - destruct (remall_inv mm s0 cb0 e I) as [m1 [S1 S2]]. rewrite S1. cbn [bind]. eapply IHA; eauto.
    - cbn [bind]. eapply IHA; eauto. apply write_inv; auto.
  Qed.
End Inv.

(** ** C14 *)

(** After every history of calls allowed by the specification, no call touches
    freed or foreign memory, and MEnt_Get_AttVal returns for every entity and
    every attribute exactly what the map says; vectors and tensors are returned
    as a pointer to a block holding the components that were current at the
    time of the call that set them. *)
Theorem C14_attributes : forall adef ops s cb, (forall a, 0 <= snd (adef a)) ->
  aspec adef (fun _ _ => None, fun _ => None) ops (s, cb) ->
  exists m, arun adef a_empty ops = Ok m /\ forall e a, exists out, MEnt_Get_AttVal adef m e a = Ok out /\ shows m (s e a) out.
Proof.
  intros adef ops s cb N A. destruct (arun_inv adef N ops a_empty _ _ s cb A) as [m [R I]].
  - constructor; cbn; try (intros; discriminate); try (intros; contradiction).
    + lia.
    + intros. constructor.
  - exists m. split; auto. intros e a. destruct (get_inv adef m s cb e a I) as [out [G1 [G2 _]]]. eauto.
Qed.
Print Assumptions C14_attributes.

(** Clearing an attached vector copies from a NULL pointer. *)
Theorem C14_clear_vector_refuted : exists adef m, (forall a, 0 <= snd (adef a)) /\
  arun adef a_empty [AWrite (-1) [10; 20]; ASet 7 3 0 0 (-1)] = Ok m /\ MEnt_Clear_AttVal adef m 7 3 = Undef.
Proof.
  exists (fun _ => (TVECTOR, 2)). eexists. split; [cbn; lia|]. split; [cbn; reflexivity|]. reflexivity.
Qed.
Print Assumptions C14_clear_vector_refuted.

Definition C14_adef (a : Z) : atype * Z := if a =? 1 then (TINT, 1) else if a =? 2 then (TDOUBLE, 1) else if a =? 3 then (TPOINTER, 1) else (TVECTOR, 3).
Definition C14_ops := [ASet 10 1 5 0 0; ASet 10 2 0 77 0; AWrite (-8) [1; 2; 3; 4]; ASet 10 4 0 0 (-8); ACopy 11 4 10 4; AWrite (-8) [9; 9; 9];
  ASet 11 1 6 0 0; ARem 10 2; AClear 11 1; ASet 12 5 0 0 (-8); ARemAll 10; ASet 10 3 0 0 1234].
Example C14_ex : (exists s, aspec C14_adef (fun _ _ => None, fun _ => None) C14_ops s /\ fst s 11 4 = Some (AVec [1; 2; 3]) /\ fst s 10 4 = None) /\
  match arun C14_adef a_empty C14_ops with
  | Ok m => MEnt_Get_AttVal C14_adef m 11 1 = Ok (1, 0, 0, NULL) /\ MEnt_Get_AttVal C14_adef m 10 1 = Ok (0, 0, 0, NULL) /\
            (exists p, MEnt_Get_AttVal C14_adef m 11 4 = Ok (1, 0, 0, p) /\ a_blk m p = Some [1; 2; 3])
  | _ => False
  end.
Proof.
  split.
  - eexists. split.
    + unfold C14_ops. eapply as_set; [reflexivity|]. eapply as_set; [reflexivity|]. apply as_write; [lia|]. eapply as_set; [reflexivity|].
      eapply as_copy; [reflexivity|reflexivity|]. apply as_write; [lia|]. eapply as_set; [reflexivity|]. apply as_rem. eapply as_clear; [reflexivity|reflexivity|].
      eapply as_set; [reflexivity|]. apply as_remall. eapply as_set; [reflexivity|]. apply as_nil.
    + split; reflexivity.
  - vm_compute. split; auto. split; auto. eexists. split; reflexivity.
Qed.
