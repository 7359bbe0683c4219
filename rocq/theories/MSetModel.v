(** Model of the set operations of /repo/src/base/MSet.c (compiled with
    MSTK_USE_MARKERS and without DEBUG).  Set names, and the lists leaked by
    lines 139 and 196, are not modelled; MSet_New registers the set with the
    mesh, which is not modelled either. *)
From Coq Require Import ZArith List Bool.
From Verif Require Import Base ListModel MarkModel.
Import ListNotations.
Open Scope Z_scope.

(** /repo/include/MSet.h: struct MSet. *)
Record mset := mkS { ms_mesh : ptr; ms_dim : Z; ms_list : LList }.

(** The loop [idx = 0; while ((ent = MSet_Next_Entry(set,&idx))) body] of MSet.c
    205-218, 284-292, 345-348. *)
Fixpoint lwhile {A : Type} (body : A -> ptr -> result A) (n : nat) (l : LList) (idx : Z) (s : A) : result A :=
  match n with
  | O => OutOfFuel
  | S k =>
      '(idx', e) <- List_Next_Entry l idx ;;
      if e =? NULL then Ok s else s <- body s e ;; lwhile body k l idx' s
  end.
Definition lloop {A : Type} (body : A -> ptr -> result A) (l : LList) (s : A) : result A :=
  lwhile body (S (length (entry l))) l 0 s.

(** MSet.c 24-52 MSet_New. *)
Definition MSet_New (mesh : ptr) (dim : Z) : result mset := l <- List_New 0 ;; Ok (mkS mesh dim l).

(** MSet.c 79-81 MSet_Add (the list is changed in place). *)
Definition MSet_Add (s : mset) (e : ptr) : result mset := l <- List_Add (ms_list s) e ;; Ok (mkS (ms_mesh s) (ms_dim s) l).

(** MSet.c 372-386 MSet_Mark, MSet_Unmark: the same loops as List_Mark. *)
Definition MSet_Mark (mk : Z -> Z) (s : mset) (id : Z) := List_Mark mk (ms_list s) id.
Definition MSet_Unmark (mk : Z -> Z) (s : mset) (id : Z) := List_Unmark mk (ms_list s) id.

(** MSet.c 145-154 MSets_Cat: the second test compares dest with itself. *)
Definition MSets_Cat (dest src : mset) : result mset :=
  if negb (ms_mesh dest =? ms_mesh src) || negb (ms_dim dest =? ms_dim dest) then Fatal
  else l <- List_Cat (ms_list dest) (ms_list src) ;; Ok (mkS (ms_mesh dest) (ms_dim dest) l).

(** Dimension of a new set, MSet.c 184-193, 255-264 (MALLTYPE is 5). *)
Definition common_dim (s1 s2 : mset) : Z := if negb (ms_dim s1 =? ms_dim s2) then 5 else ms_dim s1.

Section Ops.
  Variable ov : Z -> Z.

  (** MSet.c 160-225 MSets_Union; result (marker pool, marks, set or NULL). *)
  Definition MSets_Union (st : mkst) (mk : Z -> Z) (s1 s2 : mset) : result (mkst * (Z -> Z) * option mset) :=
    if negb (ms_mesh s1 =? ms_mesh s2) then Ok (st, mk, None)
    else
      new <- MSet_New (ms_mesh s1) (common_dim s1 s2) ;;
      l <- List_Copy (ms_list s1) ;;
      let new := mkS (ms_mesh new) (ms_dim new) l in
      '(st, mkid) <- MSTK_GetMarker st ;;
      mk <- MSet_Mark mk new mkid ;;
      '(new, mk) <- lloop (fun p ent =>
          let '(new, mk) := p in
          inset <- MEnt_IsMarked mk ent mkid ;;
          if inset =? 0 then
            new <- MSet_Add new ent ;; mk <- MEnt_Mark mk ent mkid ;; Ok (new, mk)
          else Ok (new, mk)) (ms_list s2) (new, mk) ;;
      mk <- MSet_Unmark mk new mkid ;;
      st <- MSTK_FreeMarker ov st mkid ;;
      Ok (st, mk, Some new).

  (** MSet.c 230-307 MSets_Intersect. *)
  Definition MSets_Intersect (st : mkst) (mk : Z -> Z) (s1 s2 : mset) : result (mkst * (Z -> Z) * option mset) :=
    if negb (ms_mesh s1 =? ms_mesh s2) then Ok (st, mk, None)
    else
      new <- MSet_New (ms_mesh s1) (common_dim s1 s2) ;;
      '(st, mkid1) <- MSTK_GetMarker st ;;
      mk <- MSet_Mark mk s1 mkid1 ;;
      '(st, mkid2) <- MSTK_GetMarker st ;;
      mk <- MSet_Mark mk s2 mkid2 ;;
      let sa := if List_Num_Entries (ms_list s1) <? List_Num_Entries (ms_list s2) then s1 else s2 in
      new <- lloop (fun new ent =>
          m1 <- MEnt_IsMarked mk ent mkid1 ;;
          m2 <- MEnt_IsMarked mk ent mkid2 ;;
          if negb (m1 =? 0) && negb (m2 =? 0) then MSet_Add new ent else Ok new) (ms_list sa) new ;;
      mk <- MSet_Unmark mk s1 mkid1 ;;
      st <- MSTK_FreeMarker ov st mkid1 ;;
      mk <- MSet_Unmark mk s2 mkid2 ;;
      st <- MSTK_FreeMarker ov st mkid2 ;;
      Ok (st, mk, if List_Num_Entries (ms_list new) =? 0 then None else Some new).

  (** MSet.c 312-369 MSets_Subtract. *)
  Definition MSets_Subtract (st : mkst) (mk : Z -> Z) (s1 s2 : mset) : result (mkst * (Z -> Z) * option mset) :=
    if negb (ms_mesh s1 =? ms_mesh s2) then Ok (st, mk, None)
    else
      new <- MSet_New (ms_mesh s1) (ms_dim s1) ;;
      '(st, mkid) <- MSTK_GetMarker st ;;
      mk <- MSet_Mark mk s2 mkid ;;
      new <- lloop (fun new ent =>
          m1 <- MEnt_IsMarked mk ent mkid ;;
          if m1 =? 0 then MSet_Add new ent else Ok new) (ms_list s1) new ;;
      mk <- MSet_Unmark mk s2 mkid ;;
      st <- MSTK_FreeMarker ov st mkid ;;
      Ok (st, mk, if List_Num_Entries (ms_list new) =? 0 then None else Some new).
End Ops.
