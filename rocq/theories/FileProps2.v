(** C36: how close coordinates and attribute values are after writing and
    reading. *)
From Coq Require Import ZArith Bool Reals Lra Lia Floats.SpecFloat List.
From Flocq Require Import Core BinarySingleNaN.
From Verif Require Import Base ListSpec TopoModel TopoSpec TopoProps ParModel FileModel FileSpec FileProofs4 FilePrec FileProps.
Import ListNotations.
Open Scope R_scope.

(** A double printed with k decimals and read is a double within 10^-k. *)
Theorem C36_precision : forall k x, valid_binary 53 1024 x = true -> is_finite_SF x = true ->
  valid_binary 53 1024 (back k x) = true /\ is_finite_SF (back k x) = true /\ Rabs (SF2R radix2 (back k x) - SF2R radix2 x) <= / IZR (10 ^ Z.of_nat k).
Proof.
  intros k x V F. destruct x as [s|s| |s m e]; try discriminate F.
  - cbn [back]. split; auto. split; auto. cbn [SF2R]. rewrite Rminus_0_r, Rabs_R0. left. apply Rinv_0_lt_compat. exact (T_R k).
  - destruct (back_ok k s m e V) as (V' & F' & E & _). split; [exact V'|]. split; [exact F'|]. change (Rabs (val (back k (S754_finite s m e)) - val (S754_finite s m e)) <= / IZR (T k)). rewrite E. apply near. exact V.
Qed.
Print Assumptions C36_precision.
Example C36_precision_ex : valid_binary 53 1024 (fl 1 3) = true /\ is_finite_SF (fl 1 3) = true /\ back 16 (fl 1 3) = fl 1 3 /\ back 6 (fl 1 3) = fl 333333 1000000 /\ back 6 (fl 1 3) <> fl 1 3.
Proof. vm_compute. repeat split; try reflexivity. discriminate. Qed.

(** Coordinates of at least 1/2 and attribute values of at least 2^33 come back
    unchanged. *)
Theorem C36_exact : forall x, valid_binary 53 1024 x = true -> is_finite_SF x = true ->
  (/ 2 <= Rabs (SF2R radix2 x) -> back 16 x = x) /\ (2 ^ 33 <= Rabs (SF2R radix2 x) -> back 6 x = x).
Proof.
  intros x V F. split; intro B.
  - apply (exact_big 16 (-1) x fits16 V F). exact B.
  - apply (exact_big 6 33 x fits6 V F). change (bpow radix2 33) with 8589934592. unfold val. lra.
Qed.
Print Assumptions C36_exact.
Example C36_exact_ex : valid_binary 53 1024 (fl 22 7) = true /\ is_finite_SF (fl 22 7) = true /\ / 2 <= Rabs (SF2R radix2 (fl 22 7)) /\ back 16 (fl 22 7) = fl 22 7.
Proof.
  split; [vm_compute; reflexivity|]. split; [vm_compute; reflexivity|]. split; [|vm_compute; reflexivity].
  let v := eval vm_compute in (fl 22 7) in change (fl 22 7) with v. cbn [SF2R cond_Zopp]. unfold F2R. cbn [Fnum Fexp].
  rewrite Rabs_pos_eq; [|apply Rmult_le_pos; [apply IZR_le; lia|apply bpow_ge_0]]. match goal with |- _ <= _ * bpow _ (-51) => change (bpow radix2 (-51)) with (/ 2251799813685248) | |- _ => idtac end. lra.
Qed.

(** Numbers below these bounds change once, not again: reading and writing a
    second time changes nothing. *)
Theorem C36_stable : forall x, valid_binary 53 1024 x = true -> back 16 (back 16 x) = back 16 x /\ back 6 (back 6 x) = back 6 x.
Proof. intros x V. split; [apply (back_back 16 (-1) x fits16 V)|apply (back_back 6 33 x fits6 V)]. Qed.
Print Assumptions C36_stable.
Example C36_stable_ex : valid_binary 53 1024 (fl 1 7) = true /\ back 6 (fl 1 7) <> fl 1 7 /\ back 6 (back 6 (fl 1 7)) = back 6 (fl 1 7).
Proof. vm_compute. repeat split; try reflexivity. discriminate. Qed.

(** The coordinates of the mesh that is read. *)
Theorem C36_coordinates : forall m a, printable m a ->
  exists s m', MESH_WriteToFile m = Ok s /\ MESH_InitFromFile s = Ok (Some m') /\ length (fm_v m') = length (fm_v m) /\
  forall i v x y z, nth_error (fm_v m) i = Some v -> fm_x m v = (x, y, z) -> exists v' x' y' z', nth_error (fm_v m') i = Some v' /\ fm_x m' v' = (x', y', z') /\
    forall c c', In (c, c') [(x, x'); (y, y'); (z, z')] -> valid_binary 53 1024 c = true -> is_finite_SF c = true ->
      is_finite_SF c' = true /\ Rabs (SF2R radix2 c' - SF2R radix2 c) <= / 10 ^ 16 /\ (/ 2 <= Rabs (SF2R radix2 c) -> c' = c).
Proof.
  intros m a P. destruct (C36_round_trip_partial m a P) as (s & m' & a' & phi & E1 & E2 & F). exists s, m'. split; [exact E1|]. split; [exact E2|]. pose proof (fc_kind _ _ _ _ _ F 0%Z) as K. change (fm_v m' = map (phi 0%Z) (fm_v m)) in K.
  split; [rewrite K; apply map_length|]. intros i v x y z Hv Hx. exists (phi 0%Z v), (back 16 x), (back 16 y), (back 16 z). split; [rewrite K; apply map_nth_error; exact Hv|].
  split; [apply (fc_xyz _ _ _ _ _ F); [eapply nth_error_In; eauto|exact Hx]|]. intros c c' H V FC.
  assert (c' = back 16 c) as -> by (destruct H as [H|[H|[H|[]]]]; inversion H; reflexivity).
  destruct (C36_precision 16 c V FC) as (_ & F' & D). split; [exact F'|]. split; [|apply C36_exact; auto]. eapply Rle_trans; [exact D|]. right. f_equal. change (10 ^ Z.of_nat 16)%Z with 10000000000000000%Z. lra.
Qed.
Print Assumptions C36_coordinates.
Example C36_coordinates_ex : printable (mesh0 x0 atts0) A0 /\ forall v, In v (fm_v (mesh0 x0 atts0)) -> let '(x, y, z) := fm_x (mesh0 x0 atts0) v in
  forallb (fun c => valid_binary 53 1024 c && is_finite_SF c) [x; y; z] = true.
Proof.
  split; [exact (printable0 x0 atts0 good0)|]. intros v H. cbn [mesh0 fm_v In] in H. destruct H as [<- | [<- | [<- | [<- | [<- | []]]]]]; vm_compute; reflexivity.
Qed.
