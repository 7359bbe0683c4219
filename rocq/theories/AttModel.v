(** Model of attributes: /repo/src/base/MEntity.c 306-631 and
    /repo/src/base/MAttrib.c 127-212 (compiled without DEBUG). *)
From Coq Require Import ZArith List Bool.
From Verif Require Import Base.
Import ListNotations.
Open Scope Z_scope.

(** /repo/include/MSTK_types.h 73: MAttType. *)
Inductive atype := TINT | TDOUBLE | TPOINTER | TVECTOR | TTENSOR.

(** /repo/include/MAttrib.h 29-36: the union in an attribute instance.  Reading
    another member than the one written is undefined here.  Doubles are opaque
    values (their bit patterns). *)
Inductive uval := UInt (i : Z) | UDbl (d : Z) | UPtr (p : ptr).

Record attins := mkAI { ai_attrib : Z; ai_val : uval }.

(** The parts of memory used by attributes: the AttInsList of every entity
    (NULL-free sequences, justified by C01), the attribute instances, and blocks
    of doubles; [a_next] is the next address that malloc returns. *)
Record amem := mkA {
  a_list : Z -> option (list ptr);
  a_ins : Z -> option attins;
  a_blk : Z -> option (list Z);
  a_next : Z
}.

Definition zupd {A : Type} (f : Z -> A) (k : Z) (v : A) : Z -> A := fun x => if x =? k then v else f x.

Definition set_alist m f := mkA f (a_ins m) (a_blk m) (a_next m).
Definition set_ains m f := mkA (a_list m) f (a_blk m) (a_next m).
Definition set_ablk m f := mkA (a_list m) (a_ins m) f (a_next m).
Definition set_anext m n := mkA (a_list m) (a_ins m) (a_blk m) n.

Section Att.
  (** Type and number of components of every attribute (MAttrib_Get_Type,
      MAttrib_Get_NumComps, MAttrib.c 89-99). *)
  Variable adef : Z -> atype * Z.

  Definition iget (m : amem) (x : ptr) : result attins :=
    match a_ins m x with Some i => Ok i | None => Undef end.

  (** MAttrib.c 127-136 MAttIns_New. *)
  Definition MAttIns_New (m : amem) (attrib : Z) : amem * ptr :=
    let x := a_next m in
    (set_anext (set_ains m (zupd (a_ins m) x (Some (mkAI attrib (UPtr NULL))))) (x + 1), x).

  (** MAttrib.c 157-160, 168-171: copy of a vector or tensor. *)
  Definition copy_block (m : amem) (ncomp : Z) (pval : ptr) : result (amem * ptr) :=
    match a_blk m pval with
    | Some d =>
        if Z.of_nat (length d) <? ncomp then Undef
        else let y := a_next m in
             Ok (set_anext (set_ablk m (zupd (a_blk m) y (Some (firstn (Z.to_nat ncomp) d)))) (y + 1), y)
    | None => Undef
    end.

  (** MAttrib.c 142-180 MAttIns_Set_Value. *)
  Definition MAttIns_Set_Value (m : amem) (x : ptr) (ival lval : Z) (pval : ptr) : result amem :=
    i <- iget m x ;;
    let '(t, ncomp) := adef (ai_attrib i) in
    match t with
    | TINT => Ok (set_ains m (zupd (a_ins m) x (Some (mkAI (ai_attrib i) (UInt ival)))))
    | TDOUBLE => Ok (set_ains m (zupd (a_ins m) x (Some (mkAI (ai_attrib i) (UDbl lval)))))
    | TVECTOR | TTENSOR =>
        '(m, y) <- copy_block m ncomp pval ;;
        Ok (set_ains m (zupd (a_ins m) x (Some (mkAI (ai_attrib i) (UPtr y)))))
    | TPOINTER => Ok (set_ains m (zupd (a_ins m) x (Some (mkAI (ai_attrib i) (UPtr pval)))))
    end.

  (** MAttrib.c 182-201 MAttIns_Get_Value: new values of ival, lval and pval, all three
      pointers not NULL. *)
  Definition MAttIns_Get_Value (m : amem) (x : ptr) (ival lval : Z) (pval : ptr) : result (Z * Z * ptr) :=
    i <- iget m x ;;
    match fst (adef (ai_attrib i)), ai_val i with
    | TINT, UInt v => Ok (v, lval, pval)
    | TDOUBLE, UDbl v => Ok (ival, v, pval)
    | TVECTOR, UPtr v | TTENSOR, UPtr v | TPOINTER, UPtr v => Ok (ival, lval, v)
    | _, _ => Undef
    end.

  (** MAttrib.c 204-212 MAttIns_Delete. *)
  Definition MAttIns_Delete (m : amem) (x : ptr) : result amem :=
    i <- iget m x ;;
    m <- match fst (adef (ai_attrib i)) with
         | TVECTOR | TTENSOR =>
             match ai_val i with
             | UPtr p => if negb (p =? NULL) then
                           match a_blk m p with Some _ => Ok (set_ablk m (zupd (a_blk m) p None)) | None => Undef end
                         else Ok m
             | _ => Undef
             end
         | _ => Ok m
         end ;;
    Ok (set_ains m (zupd (a_ins m) x None)).

  (** MEntity.c 329-335, 434-440, 561-569, 599-605: search the instances of an
      entity for an attribute; result (position, instance). *)
  Fixpoint att_find (m : amem) (l : list ptr) (attrib i : Z) : result (option (Z * ptr)) :=
    match l with
    | [] => Ok None
    | x :: t => n <- iget m x ;;
                if ai_attrib n =? attrib then Ok (Some (i, x)) else att_find m t attrib (i + 1)
    end.

  (** MEntity.c 306-344 MEnt_Set_AttVal. *)
  Definition MEnt_Set_AttVal (m : amem) (e attrib ival lval : Z) (pval : ptr) : result amem :=
    let l := match a_list m e with Some l => l | None => [] end in
    r <- att_find m l attrib 0 ;;
    match r with
    | Some (_, x) => MAttIns_Set_Value m x ival lval pval
    | None =>
        let '(m, x) := MAttIns_New m attrib in
        let m := set_alist m (zupd (a_list m) e (Some (l ++ [x]))) in
        MAttIns_Set_Value m x ival lval pval
    end.

  (** MEntity.c 409-449 MEnt_Get_AttVal: (status, ival, lval, pval). *)
  Definition MEnt_Get_AttVal (m : amem) (e attrib : Z) : result (Z * Z * Z * ptr) :=
    match a_list m e with
    | None => Ok (0, 0, 0, NULL)
    | Some l =>
        r <- att_find m l attrib 0 ;;
        match r with
        | None => Ok (0, 0, 0, NULL)
        | Some (_, x) => '(i, d, p) <- MAttIns_Get_Value m x 0 0 NULL ;; Ok (1, i, d, p)
        end
    end.

  (** List_Remi on the sequence of entries (List.c 607-661, by C01). *)
  Definition seq_remi (l : list ptr) (i : Z) : list ptr := firstn (Z.to_nat i) l ++ skipn (Z.to_nat i + 1) l.

  (** MEntity.c 540-577 MEnt_Rem_AttVal. *)
  Definition MEnt_Rem_AttVal (m : amem) (e attrib : Z) : result amem :=
    match a_list m e with
    | None => Ok m
    | Some l =>
        r <- att_find m l attrib 0 ;;
        match r with
        | None => Ok m
        | Some (i, x) => MAttIns_Delete (set_alist m (zupd (a_list m) e (Some (seq_remi l i)))) x
        end
    end.

  (** MEntity.c 579-611 MEnt_Clear_AttVal. *)
  Definition MEnt_Clear_AttVal (m : amem) (e attrib : Z) : result amem :=
    match a_list m e with
    | None => Ok m
    | Some l =>
        r <- att_find m l attrib 0 ;;
        match r with
        | None => Ok m
        | Some (_, x) => MAttIns_Set_Value m x 0 0 NULL
        end
    end.

  Fixpoint del_all (m : amem) (l : list ptr) : result amem :=
    match l with [] => Ok m | x :: t => m <- MAttIns_Delete m x ;; del_all m t end.

  (** MEntity.c 616-631 MEnt_Rem_AllAttVals. *)
  Definition MEnt_Rem_AllAttVals (m : amem) (e : Z) : result amem :=
    match a_list m e with
    | None => Ok m
    | Some l => m <- del_all m l ;; Ok (set_alist m (zupd (a_list m) e None))
    end.
End Att.
