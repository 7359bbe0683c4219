(** Specification of an interning table: a finite set of (entity, key, lock word)
    triples; and histories of calls. *)
From Coq Require Import ZArith List Bool Permutation.
From Verif Require Import Base HashModel.
Import ListNotations.
Open Scope Z_scope.

Notation tab := (list (Z * list Z * Z)) (only parsing).
Definition t_ent (x : Z * list Z * Z) : Z := fst (fst x).
Definition t_key (x : Z * list Z * Z) : list Z := snd (fst x).
Definition t_lock (x : Z * list Z * Z) : Z := snd x.

(** In use: the low four bits of the lock word are not all zero. *)
Definition in_use (x : Z * list Z * Z) : bool := negb (t_lock x mod 16 =? 0).

(** The calls.  An entity is created with its key just before HAdd or HChknAdd
    and its lock word is changed by HSetLock. *)
Inductive hop :=
| HAdd (e : Z) (k : list Z) (lock : Z)
| HChknAdd (e : Z) (k : list Z) (lock : Z)
| HEntry (k : list Z)
| HEntries
| HNum
| HRemUnused
| HSetLock (e : Z) (lock : Z)
| HAuto (b : bool).

Definition set_lock (e l : Z) (t : tab) : tab :=
  map (fun x => if t_ent x =? e then (t_ent x, t_key x, l) else x) t.

(** When a call is allowed: new entities are new, keys added are new. *)
Definition hpre (t : tab) (o : hop) : Prop :=
  match o with
  | HAdd e k _ => e <> 0 /\ ~ In e (map t_ent t) /\ ~ In k (map t_key t)
  | HChknAdd e k _ => e <> 0 /\ ~ In e (map t_ent t)
  | HSetLock e _ => In e (map t_ent t)
  | _ => True
  end.

(** [purge t0 t]: before an addition the table may drop its unused entries, but
    only when automatic removal is on and there are at least eight. *)
Definition purge (auto : bool) (t t0 : tab) : Prop :=
  t0 = t \/ (auto = true /\ (8 <= length t)%nat /\ t0 = filter in_use t).

(** Effect (auto flag, table) and output of one call. *)
Inductive hrel : bool * tab -> hop -> bool * tab -> list Z -> Prop :=
| hr_add : forall a t t0 e k l, purge a t t0 ->
    hrel (a, t) (HAdd e k l) (a, (e, k, l) :: t0) []
| hr_chk_new : forall a t t0 e k l, purge a t t0 -> ~ In k (map t_key t0) ->
    hrel (a, t) (HChknAdd e k l) (a, (e, k, l) :: t0) [0]
| hr_chk_old : forall a t t0 e k l x, purge a t t0 -> In x t0 -> t_key x = k ->
    hrel (a, t) (HChknAdd e k l) (a, t0) [t_ent x]
| hr_entry_some : forall a t k x, In x t -> t_key x = k -> hrel (a, t) (HEntry k) (a, t) [t_ent x]
| hr_entry_none : forall a t k, ~ In k (map t_key t) -> hrel (a, t) (HEntry k) (a, t) [0]
| hr_entries : forall a t r, Permutation r (map t_ent t) -> hrel (a, t) HEntries (a, t) r
| hr_num : forall a t, hrel (a, t) HNum (a, t) [Z.of_nat (length t)]
| hr_rmu : forall a t, hrel (a, t) HRemUnused (a, filter in_use t)
                         [Z.of_nat (length t) - Z.of_nat (length (filter in_use t))]
| hr_lock : forall a t e l, hrel (a, t) (HSetLock e l) (a, set_lock e l t) []
| hr_auto : forall a t b, hrel (a, t) (HAuto b) (b, t) [].

Inductive hrels : bool * tab -> list hop -> bool * tab -> list (list Z) -> Prop :=
| hrs_nil : forall s, hrels s [] s []
| hrs_cons : forall s o s1 r ops s2 rs, hrel s o s1 r -> hrels s1 ops s2 rs -> hrels s (o :: ops) s2 (r :: rs).

(** Every call of the history is allowed, whatever the table chose to drop. *)
Fixpoint hallowed (s : bool * tab) (ops : list hop) : Prop :=
  match ops with
  | [] => True
  | o :: rest => hpre (snd s) o /\ forall s' r, hrel s o s' r -> hallowed s' rest
  end.

(** The same calls on the model. *)
Definition hstep (st : (Z -> option hnode) * Hash) (o : hop) : result (((Z -> option hnode) * Hash) * list Z) :=
  let '(hp, h) := st in
  match o with
  | HAdd e k l => s <- Hash_Add (hupd hp e (Some (mkN NULL k l))) h e k ;; Ok (s, [])
  | HChknAdd e k l => '(hp', h', r) <- Hash_ChknAdd (hupd hp e (Some (mkN NULL k l))) h e k ;; Ok (hp', h', [r])
  | HEntry k => r <- Hash_Entry hp h k ;; Ok (hp, h, [r])
  | HEntries => r <- Hash_Entries hp h ;; Ok (hp, h, r)
  | HNum => Ok (hp, h, [Hash_Num_Entries h])
  | HRemUnused => '(hp', h', c) <- Hash_Remove_Unused hp h ;; Ok (hp', h', [c])
  | HSetLock e l => n <- hget hp e ;; Ok (hupd hp e (Some (mkN (hn_next n) (hn_key n) l)), h, [])
  | HAuto b => Ok (hp, Hash_Set_AutoRemove h (if b then 1 else 0), [])
  end.

Fixpoint hrun (st : (Z -> option hnode) * Hash) (ops : list hop) : result (((Z -> option hnode) * Hash) * list (list Z)) :=
  match ops with
  | [] => Ok (st, [])
  | o :: t => '(st1, r) <- hstep st o ;; '(st2, rs) <- hrun st1 t ;; Ok (st2, r :: rs)
  end.
