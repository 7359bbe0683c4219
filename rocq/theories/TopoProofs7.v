(** Deciding the preconditions of operations, for concrete histories. *)
From Coq Require Import ZArith List Lia Bool Arith ZifyBool ZifyNat.
From Verif Require Import Base BaseProofs ListSpec TopoModel TopoSpec TopoProofs TopoProofs2 TopoProofs6.
Import ListNotations.
Open Scope Z_scope.

Definition alive {A} (o : option (bool * A)) : bool := match o with Some (true, _) => true | _ => false end.
Definition fullb {A} (o : option (bool * option A)) : bool := match o with Some (true, Some _) => true | _ => false end.
Definition bareb {A} (o : option (bool * option (list A))) : bool := match o with Some (true, None) | Some (true, Some []) => true | _ => false end.
Definition endsb (o : option (bool * (ptr * ptr))) (v : ptr) : bool := match o with Some (true, (v0, v1)) => (v0 =? v) || (v1 =? v) | _ => false end.
Definition memb (o : option (bool * option (list (ptr * bool)))) (p : ptr) : bool := match o with Some (true, Some b) => existsb (fun x => fst x =? p) b | _ => false end.
Definition memdb (o : option (bool * option (list (ptr * bool)))) (p : ptr) (d : bool) : bool :=
  match o with Some (true, Some b) => existsb (fun x => (fst x =? p) && Bool.eqb (snd x) d) b | _ => false end.
Fixpoint nodupb (l : list ptr) : bool := match l with [] => true | x :: l' => negb (mem x l') && nodupb l' end.
Definition freeb a r (b : list (ptr * bool)) : bool := forallb (fun x => forallb (fun q => (q =? r) || negb (memdb (a_r a q) (fst x) (snd x))) (zrange 1 (a_next a))) b.
Fixpoint goto a (v : ptr) (nd : list (ptr * bool)) : option ptr :=
  match nd with
  | [] => Some v
  | (e, d) :: nd' => match a_e a e with
                     | Some (true, x) => if (fst x =? snd x) || negb (d_start x d =? v) then None else goto a (d_end x d) nd'
                     | _ => None end
  end.
Definition start a (nd : list (ptr * bool)) : ptr := match nd with (e, d) :: _ => match a_e a e with Some (_, x) => d_start x d | None => NULL end | [] => NULL end.
Definition isv (o : option bool) (b : bool) := match o with Some c => Bool.eqb c b | None => false end.
Definition isSome {A} (o : option A) := match o with Some _ => true | None => false end.

Definition tpreb (a : amesh) (o : top) : bool :=
  match o with
  | TNewV | TNewE | TNewF | TNewR => true
  | TSetVertex e i v => isv (a_v a v) true && match a_e a e with Some (true, (v0, v1)) => (if i : bool then v1 else v0) =? NULL | _ => false end
  | TReplaceVertex e ov nv => isv (a_v a nv) true && negb (ov =? NULL) && negb (ov =? nv) && match a_e a e with Some (true, (v0, v1)) => negb (v0 =? v1) | _ => false end
  | TSetEdges f b => bareb (a_f a f) && nodupb (map fst b) && (length b <=? maxfe)%nat && forallb (fun x => alive (a_e a (fst x))) b
  | TRemEdge f e => fullb (a_f a f)
  | TReplaceEdges f i n nd rv => fullb (a_f a f) &&
      let b := fbdry a f in
      let b' := splice i n nd b in
      (i <? length b)%nat && (1 <=? n)%nat && (n <=? length b)%nat && (1 <=? length nd)%nat &&
      ((length nd =? n)%nat || ((n <? length nd)%nat && (i + n <=? length b)%nat) || ((n =? S (length nd))%nat && negb (mem (fst (nth (n - 1) (run i n b) (NULL, true))) (map fst nd)))) &&
      nodupb (map fst b') && (length b' <=? maxfe)%nat && forallb (fun x => alive (a_e a (fst x))) nd &&
      match goto a (start a (run i n b)) (run i n b), goto a (start a (run i n b)) nd with Some v1, Some v2 => v1 =? v2 | _, _ => false end &&
      (negb rv || nodupb (start a (run i n b) :: stops a nd))
  | TRevEdgeDir f e => fullb (a_f a f)
  | TSetFaces r b => bareb (a_r a r) && nodupb (map fst b) && (length b <=? maxrf)%nat && forallb (fun x => fullb (a_f a (fst x))) b && freeb a r b
  | TRemFace r f => fullb (a_r a r)
  | TReplaceFace r i n => fullb (a_r a r) && (i <? length (rbdry a r))%nat && nodupb (map fst (firstn i (rbdry a r) ++ n :: skipn (S i) (rbdry a r))) && fullb (a_f a (fst n)) && freeb a r [n]
  | TReplaceFaces r olds nus => fullb (a_r a r) && nodupb olds && forallb (fun p => mem p (map fst (rbdry a r))) olds && (length olds <=? length nus)%nat &&
      nodupb (map fst nus) && forallb (fun p => negb (mem p (map fst (rbdry a r)))) (map fst nus) && forallb (fun x => fullb (a_f a (fst x))) nus && freeb a r nus &&
      (length (rbdry a r) + length nus - length olds <=? maxrf)%nat
  | TSetFaceDir r f d => fullb (a_r a r) && freeb a r [(f, d)]
  | TRevFaceDir r f => fullb (a_r a r)
  | TDelV v keep => isSome (a_v a v) && forallb (fun e => negb (endsb (a_e a e) v)) (zrange 1 (a_next a))
  | TDelE e keep => isSome (a_e a e) && forallb (fun f => negb (memb (a_f a f) e)) (zrange 1 (a_next a))
  | TDelF f keep => isSome (a_f a f) && forallb (fun r => negb (memb (a_r a r) f)) (zrange 1 (a_next a))
  | TDelR r keep => isSome (a_r a r)
  | TResV v => isv (a_v a v) false
  | TResE e => match a_e a e with Some (false, (v0, v1)) => isv (a_v a v0) true && isv (a_v a v1) true | _ => false end
  | TResF f => match a_f a f with Some (false, Some b) => forallb (fun x => alive (a_e a (fst x))) b | _ => false end
  | TResR r => match a_r a r with Some (false, Some b) => forallb (fun x => fullb (a_f a (fst x))) b && freeb a r b | _ => false end
  | TUpdateType r => fullb (a_r a r)
  end.
Fixpoint tallowedb (a : amesh) (ops : list top) : bool :=
  match ops with [] => true | o :: ops' => tpreb a o && tallowedb (astep a o) ops' end.

Lemma nodupb_ok : forall l, nodupb l = true -> NoDup l.
Proof. induction l as [|x l IH]; cbn; intros H; constructor. intros Hi. apply mem_In in Hi. rewrite Hi in H. discriminate. apply IH. lia. Qed.
Lemma isv_ok : forall o b, isv o b = true -> o = Some b.
Proof. intros [c|] b; cbn; intros H; [|discriminate]. apply eqb_prop in H. subst. auto. Qed.
Lemma alive_ok : forall A (o : option (bool * A)), alive o = true -> exists x, o = Some (true, x).
Proof. intros A [[[|] x]|]; cbn; intros; try discriminate; eauto. Qed.
Lemma fullb_ok : forall A (o : option (bool * option A)), fullb o = true -> exists x, o = Some (true, Some x).
Proof. intros A [[[|] [x|]]|]; cbn; intros; try discriminate; eauto. Qed.
Lemma bareb_ok : forall A (o : option (bool * option (list A))), bareb o = true -> o = Some (true, None) \/ o = Some (true, Some []).
Proof. intros A [[[|] [[|]|]]|]; cbn; intros; try discriminate; eauto. Qed.
Lemma isSome_ok : forall A (o : option A), isSome o = true -> o <> None.
Proof. intros A [x|]; cbn; congruence. Qed.
Lemma alives_ok : forall a (b : list (ptr * bool)), forallb (fun x => alive (a_e a (fst x))) b = true -> Forall (fun x => live_e a (fst x)) b.
Proof. intros a b H. rewrite forallb_forall in H. rewrite Forall_forall. intros x Hx. apply alive_ok. auto. Qed.
Lemma fulls_ok : forall a (b : list (ptr * bool)), forallb (fun x => fullb (a_f a (fst x))) b = true -> Forall (fun x => full_f a (fst x)) b.
Proof. intros a b H. rewrite forallb_forall in H. rewrite Forall_forall. intros x Hx. apply fullb_ok. auto. Qed.
Lemma in_zrange : forall a b i, a <= i < b -> In i (zrange a b).
Proof. intros a b i H. unfold zrange. rewrite in_map_iff. exists (Z.to_nat (i - a)). split. lia. apply in_seq. lia. Qed.
Lemma freeb_ok : forall a r b, wfa a -> freeb a r b = true -> sides_free a r b.
Proof.
  intros a r b W H f d q Hi (c & Hc & Hm). unfold freeb in H. rewrite forallb_forall in H. specialize (H _ Hi). rewrite forallb_forall in H.
  specialize (H q (in_zrange _ _ _ (w_r _ W q ltac:(congruence)))). rewrite Hc in H. cbn in H.
  assert (E : existsb (fun x => (fst x =? f) && Bool.eqb (snd x) d) c = true). { apply existsb_exists. exists (f, d). cbn. rewrite Z.eqb_refl, eqb_reflx. auto. }
  rewrite E in H. lia.
Qed.
Lemma goto_ok : forall a nd v v', goto a v nd = Some v' -> path a v nd v'.
Proof.
  induction nd as [|[e d] nd IH]; intros v v' H; cbn in *. congruence. destruct (a_e a e) as [[[|] x]|]; try discriminate. exists x. split; auto.
  destruct ((fst x =? snd x) || negb (d_start x d =? v)) eqn:E; [discriminate|]. split; [lia|]. split; [lia|]. apply IH. auto.
Qed.
Lemma tpreb_ok : forall a o, wfa a -> tpreb a o = true -> tpre a o.
Proof.
  intros a o W H. destruct o; cbn [tpreb tpre] in *; auto; repeat (apply andb_true_iff in H; let H' := fresh "G" in destruct H as [H H']);
   repeat match goal with
   | [ G : isv _ _ = true |- _ ] => apply isv_ok in G
   | [ G : isSome _ = true |- _ ] => apply isSome_ok in G
   | [ G : nodupb _ = true |- _ ] => apply nodupb_ok in G
   | [ G : bareb _ = true |- _ ] => apply bareb_ok in G
   | [ G : fullb _ = true |- _ ] => apply fullb_ok in G
   | [ G : freeb _ _ _ = true |- _ ] => apply (freeb_ok _ _ _ W) in G
   | [ G : forallb (fun x => alive (a_e _ (fst x))) _ = true |- _ ] => apply alives_ok in G
   | [ G : forallb (fun x => fullb (a_f _ (fst x))) _ = true |- _ ] => apply fulls_ok in G
   end.
  - split; auto. destruct (a_e a e) as [[[|] [v0 v1]]|]; try discriminate. exists v0, v1. split; auto. lia.
  - split; auto. split; [lia|]. split; [lia|]. destruct (a_e a e) as [[[|] [v0 v1]]|]; try discriminate. exists v0, v1. split; auto. lia.
  - split; auto. split; auto. split; auto. lia.
  - exact H.
  - split; [exact H|]. cbv zeta in *. repeat (apply andb_true_iff in G; let H' := fresh "G" in destruct G as [G H']).
    split; [lia|]. split; [lia|]. split; [lia|]. split.
    { apply orb_true_iff in G5. destruct G5 as [G5|G5].
      - apply orb_true_iff in G5. destruct G5 as [G5|G5]; [left|right; left]; lia.
      - right; right. apply andb_true_iff in G5. destruct G5 as [G5 G6']. split. lia. intros Hi. apply mem_In in Hi. rewrite Hi in G6'. discriminate. }
    split. apply nodupb_ok; auto. split; [lia|]. split. apply alives_ok; auto.
    set (v := start a (run i n (fbdry a f))) in *. destruct (goto a v (run i n (fbdry a f))) as [v1|] eqn:E1; [|discriminate]. destruct (goto a v nd) as [v2|] eqn:E2; [|discriminate].
    assert (v1 = v2) by lia. subst v2. exists v, v1. split. apply goto_ok; auto. split. apply goto_ok; auto. intros ->. apply nodupb_ok. auto.
  - exact H.
  - split; auto. split; auto. split; auto. lia.
  - exact H.
  - split; auto. split; auto. lia.
  - split; auto. split; auto. split. { rewrite forallb_forall in G5. intros p Hp. apply mem_In. auto. } split; [lia|]. split; auto. split.
    { rewrite forallb_forall in G2. intros p Hp Hq. specialize (G2 p Hp). apply mem_In in Hq. rewrite Hq in G2. discriminate. }
    split; auto. split; auto. lia.
  - split; auto.
  - exact H.
  - split; auto. intros _ e (v0 & v1 & He & Hv). rewrite forallb_forall in G. specialize (G e (in_zrange _ _ _ (w_e _ W e ltac:(congruence)))). rewrite He in G. cbn in G. lia.
  - split; auto. intros _ f (b & Hb & Hv). rewrite forallb_forall in G. specialize (G f (in_zrange _ _ _ (w_f _ W f ltac:(congruence)))). rewrite Hb in G. cbn in G.
    assert (E : existsb (fun x => fst x =? e) b = true). { apply in_map_iff in Hv. destruct Hv as (x & Hx & Hi). apply existsb_exists. exists x. split; auto. lia. } rewrite E in G. discriminate.
  - split; auto. intros _ r d (b & Hb & Hv). rewrite forallb_forall in G. specialize (G r (in_zrange _ _ _ (w_r _ W r ltac:(congruence)))). rewrite Hb in G. cbn in G.
    assert (E : existsb (fun x => fst x =? f) b = true). { apply existsb_exists. exists (f, d). split; auto. cbn. lia. } rewrite E in G. discriminate.
  - auto.
  - auto.
  - destruct (a_e a e) as [[[|] [v0 v1]]|]; try discriminate. exists v0, v1. split; auto. apply andb_true_iff in H. destruct H as [H1 H2]. split; apply isv_ok; auto.
  - destruct (a_f a f) as [[[|] [b|]]|]; try discriminate. exists b. split; auto. apply alives_ok; auto.
  - destruct (a_r a r) as [[[|] [b|]]|]; try discriminate. apply andb_true_iff in H. destruct H as [H1 H2]. exists b. split; auto. split. apply fulls_ok; auto. apply freeb_ok; auto.
  - exact H.
Qed.
