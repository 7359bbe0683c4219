(** Specification of mesh topology: only the downward data (ends of edges, edge
    loops of faces, faces of regions, each with a direction) and what is alive.
    Independent of the model in TopoModel.v. *)
From Coq Require Import ZArith List Bool.
From Verif Require Import Base.
Import ListNotations.
Open Scope Z_scope.

(** A boundary: entities with the direction they are used in. *)
Notation bdry := (list (ptr * bool)) (only parsing).

Record amesh := mkAM {
  a_v : ptr -> option bool;                    (* vertex: alive? *)
  a_e : ptr -> option (bool * (ptr * ptr));    (* edge: alive?, ends (NULL: not set) *)
  a_f : ptr -> option (bool * option bdry);    (* face: alive?, edges *)
  a_r : ptr -> option (bool * option bdry);    (* region: alive?, faces *)
  a_next : ptr }.

Definition amesh0 : amesh := mkAM (fun _ => None) (fun _ => None) (fun _ => None) (fun _ => None) 1.

Definition upd {A} (m : ptr -> A) (p : ptr) (x : A) : ptr -> A := fun q => if q =? p then x else m q.
Definition with_v a m := mkAM m (a_e a) (a_f a) (a_r a) (a_next a).
Definition with_e a m := mkAM (a_v a) m (a_f a) (a_r a) (a_next a).
Definition with_f a m := mkAM (a_v a) (a_e a) m (a_r a) (a_next a).
Definition with_r a m := mkAM (a_v a) (a_e a) (a_f a) m (a_next a).
Definition bump a := mkAM (a_v a) (a_e a) (a_f a) (a_r a) (a_next a + 1).

(** ** The incidence relation *)

Definition live_v a v := a_v a v = Some true.
Definition live_e a e := exists x, a_e a e = Some (true, x).
Definition live_f a f := exists x, a_f a f = Some (true, x).
Definition live_r a r := exists x, a_r a r = Some (true, x).
Definition full_f a f := exists x, a_f a f = Some (true, Some x).

(** [v] is an end of the live edge [e]. *)
Definition is_end a e v := exists v0 v1, a_e a e = Some (true, (v0, v1)) /\ (v0 = v \/ v1 = v).
(** The live face [f] has edge [e]. *)
Definition has_edge a f e := exists b, a_f a f = Some (true, Some b) /\ In e (map fst b).
(** The live region [r] has face [f], used in direction [d]. *)
Definition has_face a r f d := exists b, a_r a r = Some (true, Some b) /\ In (f, d) b.

(** ** Boundaries *)

Definition drop (p : ptr) (b : bdry) : bdry := filter (fun x => negb (fst x =? p)) b.
Definition flip (p : ptr) (b : bdry) : bdry := map (fun x => if fst x =? p then (fst x, negb (snd x)) else x) b.
Definition point (p : ptr) (d : bool) (b : bdry) : bdry := map (fun x => if fst x =? p then (p, d) else x) b.
Definition subst1 (o : ptr) (n : ptr * bool) (b : bdry) : bdry := map (fun x => if fst x =? o then n else x) b.

(** The run of [n] entries from position [i] on, cyclically, replaced by [nd];
    the entries not in the run keep their order and their directions. *)
Definition splice (i n : nat) (nd b : bdry) : bdry :=
  let m := length b in
  if (i + n <=? m)%nat then firstn i b ++ nd ++ skipn (i + n) b
  else skipn (m - i) nd ++ firstn (i - (i + n - m)) (skipn (i + n - m) b) ++ firstn (m - i) nd.
Definition run (i n : nat) (b : bdry) : bdry := firstn n (skipn i b ++ b).

(** Start and end of a directed edge; a path of edges that are not loops. *)
Definition d_start (x : ptr * ptr) (d : bool) := if d then fst x else snd x.
Definition d_end (x : ptr * ptr) (d : bool) := if d then snd x else fst x.
Fixpoint path a (v : ptr) (nd : bdry) (v' : ptr) : Prop :=
  match nd with
  | [] => v = v'
  | (e, d) :: nd' => exists x, a_e a e = Some (true, x) /\ fst x <> snd x /\ d_start x d = v /\ path a (d_end x d) nd' v'
  end.
(** The vertices at which the edges of a path end. *)
Fixpoint stops a (nd : bdry) : list ptr :=
  match nd with
  | [] => []
  | (e, d) :: nd' => match a_e a e with Some (_, x) => d_end x d | None => NULL end :: stops a nd'
  end.

(** Substitution of faces: old ones one by one, then the rest appended. *)
Fixpoint subst_all (olds : list ptr) (nus : bdry) (b : bdry) : bdry :=
  match olds, nus with
  | o :: olds', n :: nus' => subst_all olds' nus' (subst1 o n b)
  | [], _ => b ++ nus
  | _, [] => b
  end.

(** ** Operations *)

Inductive top :=
| TNewV | TNewE | TNewF | TNewR
| TSetVertex (e : ptr) (i : bool) (v : ptr)       (* i: second end *)
| TReplaceVertex (e ov nv : ptr)
| TSetEdges (f : ptr) (b : bdry)
| TRemEdge (f e : ptr)
| TReplaceEdges (f : ptr) (i n : nat) (nd : bdry) (rv : bool)  (* rv: new edges passed in reverse order *)
| TRevEdgeDir (f e : ptr)
| TSetFaces (r : ptr) (b : bdry)
| TRemFace (r f : ptr)
| TReplaceFace (r : ptr) (i : nat) (n : ptr * bool)
| TReplaceFaces (r : ptr) (olds : list ptr) (nus : bdry)
| TSetFaceDir (r f : ptr) (d : bool)
| TRevFaceDir (r f : ptr)
| TDelV (v : ptr) (keep : bool) | TDelE (e : ptr) (keep : bool) | TDelF (f : ptr) (keep : bool) | TDelR (r : ptr) (keep : bool)
| TResV (v : ptr) | TResE (e : ptr) | TResF (f : ptr) | TResR (r : ptr)
| TUpdateType (r : ptr).                          (* element type only: no downward data *)

Definition fbdry a f := match a_f a f with Some (_, Some b) => b | _ => [] end.
Definition rbdry a r := match a_r a r with Some (_, Some b) => b | _ => [] end.

(** The boundary of a live face or region replaced. *)
Definition set_fb a f b := with_f a (upd (a_f a) f (match a_f a f with Some (l, _) => Some (l, Some b) | None => None end)).
Definition set_rb a r b := with_r a (upd (a_r a) r (match a_r a r with Some (l, _) => Some (l, Some b) | None => None end)).
Definition kill {A} (m : ptr -> option (bool * A)) (p : ptr) (keep : bool) :=
  upd m p (if keep then match m p with Some (_, x) => Some (false, x) | None => None end else None).
Definition revive {A} (m : ptr -> option (bool * A)) (p : ptr) :=
  upd m p (match m p with Some (_, x) => Some (true, x) | None => None end).

Definition astep (a : amesh) (o : top) : amesh :=
  match o with
  | TNewV => bump (with_v a (upd (a_v a) (a_next a) (Some true)))
  | TNewE => bump (with_e a (upd (a_e a) (a_next a) (Some (true, (NULL, NULL)))))
  | TNewF => bump (with_f a (upd (a_f a) (a_next a) (Some (true, None))))
  | TNewR => bump (with_r a (upd (a_r a) (a_next a) (Some (true, None))))
  | TSetVertex e i v =>
      with_e a (upd (a_e a) e (match a_e a e with
                               | Some (l, (v0, v1)) => Some (l, if i then (v0, v) else (v, v1))
                               | None => None end))
  | TReplaceVertex e ov nv =>
      with_e a (upd (a_e a) e (match a_e a e with
                               | Some (l, (v0, v1)) => Some (l, (if v0 =? ov then nv else v0, if v1 =? ov then nv else v1))
                               | None => None end))
  | TSetEdges f b => set_fb a f b
  | TRemEdge f e => set_fb a f (drop e (fbdry a f))
  | TReplaceEdges f i n nd _ => set_fb a f (splice i n nd (fbdry a f))
  | TRevEdgeDir f e => set_fb a f (flip e (fbdry a f))
  | TSetFaces r b => set_rb a r b
  | TRemFace r f => set_rb a r (drop f (rbdry a r))
  | TReplaceFace r i n => set_rb a r (firstn i (rbdry a r) ++ n :: skipn (S i) (rbdry a r))
  | TReplaceFaces r olds nus => set_rb a r (subst_all olds nus (rbdry a r))
  | TSetFaceDir r f d => set_rb a r (point f d (rbdry a r))
  | TRevFaceDir r f =>
      (* every live region having [f] uses it the other way, if [r] has it *)
      if existsb (fun x => fst x =? f) (rbdry a r) then
        with_r a (fun q => match a_r a q with
                           | Some (true, Some b) => Some (true, Some (flip f b))
                           | x => x end)
      else a
  | TDelV v keep => with_v a (upd (a_v a) v (if keep then match a_v a v with Some _ => Some false | None => None end else None))
  | TDelE e keep => with_e a (kill (a_e a) e keep)
  | TDelF f keep => with_f a (kill (a_f a) f keep)
  | TDelR r keep => with_r a (kill (a_r a) r keep)
  | TResV v => with_v a (upd (a_v a) v (match a_v a v with Some _ => Some true | None => None end))
  | TResE e => with_e a (revive (a_e a) e)
  | TResF f => with_f a (revive (a_f a) f)
  | TResR r => with_r a (revive (a_r a) r)
  | TUpdateType r => a
  end.

(** ** When a call is allowed *)

(** No live region other than [r] uses the faces of [b] with these directions. *)
Definition sides_free a r (b : bdry) := forall f d q, In (f, d) b -> has_face a q f d -> q = r.
Definition maxfe : nat := 32.    (* edges of a face: int shifts *)
Definition maxrf : nat := 512.   (* faces of a region: MAXPF3 *)

Definition tpre (a : amesh) (o : top) : Prop :=
  match o with
  | TNewV | TNewE | TNewF | TNewR => True
  | TSetVertex e i v => live_v a v /\ exists v0 v1, a_e a e = Some (true, (v0, v1)) /\ (if i then v1 else v0) = NULL
  | TReplaceVertex e ov nv => live_v a nv /\ ov <> NULL /\ ov <> nv /\
      exists v0 v1, a_e a e = Some (true, (v0, v1)) /\ v0 <> v1
  | TSetEdges f b => (a_f a f = Some (true, None) \/ a_f a f = Some (true, Some [])) /\
      NoDup (map fst b) /\ (length b <= maxfe)%nat /\ Forall (fun x => live_e a (fst x)) b
  | TRemEdge f e => full_f a f
  | TReplaceEdges f i n nd rv => full_f a f /\
      let b := fbdry a f in
      let b' := splice i n nd b in
      (i < length b)%nat /\ (1 <= n <= length b)%nat /\ (1 <= length nd)%nat /\
      (length nd = n \/ (n < length nd /\ i + n <= length b)%nat \/
       (n = S (length nd) /\ ~ In (fst (nth (n - 1) (run i n b) (NULL, true))) (map fst nd))) /\
      NoDup (map fst b') /\ (length b' <= maxfe)%nat /\ Forall (fun x => live_e a (fst x)) nd /\
      exists v v', path a v (run i n b) v' /\ path a v nd v' /\ (rv = true -> NoDup (v :: stops a nd))
  | TRevEdgeDir f e => full_f a f
  | TSetFaces r b => (a_r a r = Some (true, None) \/ a_r a r = Some (true, Some [])) /\
      NoDup (map fst b) /\ (length b <= maxrf)%nat /\ Forall (fun x => full_f a (fst x)) b /\ sides_free a r b
  | TRemFace r f => exists b, a_r a r = Some (true, Some b)
  | TReplaceFace r i n => (exists b, a_r a r = Some (true, Some b)) /\ (i < length (rbdry a r))%nat /\
      NoDup (map fst (firstn i (rbdry a r) ++ n :: skipn (S i) (rbdry a r))) /\ full_f a (fst n) /\ sides_free a r [n]
  | TReplaceFaces r olds nus => (exists b, a_r a r = Some (true, Some b)) /\
      NoDup olds /\ incl olds (map fst (rbdry a r)) /\ (length olds <= length nus)%nat /\
      NoDup (map fst nus) /\ (forall p, In p (map fst nus) -> ~ In p (map fst (rbdry a r))) /\
      Forall (fun x => full_f a (fst x)) nus /\ sides_free a r nus /\
      (length (rbdry a r) + length nus - length olds <= maxrf)%nat
  | TSetFaceDir r f d => (exists b, a_r a r = Some (true, Some b)) /\ sides_free a r [(f, d)]
  | TRevFaceDir r f => exists b, a_r a r = Some (true, Some b)
  | TDelV v keep => a_v a v <> None /\ (live_v a v -> forall e, ~ is_end a e v)
  | TDelE e keep => a_e a e <> None /\ (live_e a e -> forall f, ~ has_edge a f e)
  | TDelF f keep => a_f a f <> None /\ (live_f a f -> forall r d, ~ has_face a r f d)
  | TDelR r keep => a_r a r <> None
  | TResV v => a_v a v = Some false
  | TResE e => exists v0 v1, a_e a e = Some (false, (v0, v1)) /\ live_v a v0 /\ live_v a v1
  | TResF f => exists b, a_f a f = Some (false, Some b) /\ Forall (fun x => live_e a (fst x)) b
  | TResR r => exists b, a_r a r = Some (false, Some b) /\ Forall (fun x => full_f a (fst x)) b /\ sides_free a r b
  | TUpdateType r => exists b, a_r a r = Some (true, Some b)
  end.

Fixpoint arun (a : amesh) (ops : list top) : amesh :=
  match ops with [] => a | o :: ops' => arun (astep a o) ops' end.
Fixpoint tallowed (a : amesh) (ops : list top) : Prop :=
  match ops with [] => True | o :: ops' => tpre a o /\ tallowed (astep a o) ops' end.
