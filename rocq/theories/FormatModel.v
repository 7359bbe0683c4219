(** Model of the choice of the file format in /repo/src/io/MESH_ExportToFile.c and
    /repo/src/io/MESH_ImportFromFile.c.

    C strings are strings without the character 0.  The functions that write and
    read the formats are named, not modelled here (OFF and STL: ExportModel.v, MSTK:
    FileModel.v).  [exo] says whether the library was built with ExodusII.
    Messages are not modelled; MSTK_ERROR does not stop the program. *)
From Coq Require Import ZArith List Bool Ascii String.
From Verif Require Import Base.
Import ListNotations.
Open Scope Z_scope.
Open Scope string_scope.

(** What is called: the formats with a function of their own. *)
Inductive fmt := FMstk | FGmv | FX3d | FExo | FNem | FStl | FOff | FDx.
(** The function called, or the status returned without one. *)
Inductive choice := Calls (f : fmt) | Returns (z : Z).

(** strchr(s,c): the string from the first [c] on, or NULL. *)
Fixpoint strchr (s : string) (c : ascii) : option string :=
  match s with
  | EmptyString => None
  | String x r => if (x =? c)%char then Some s else strchr r c
  end.
(** s + 1; undefined at the end of the string. *)
Definition past (s : string) : result string := match s with EmptyString => Undef | String _ r => Ok r end.
(** strncmp(s,t,n) == 0. *)
Fixpoint strneq (n : nat) (s t : string) : bool :=
  match n with
  | O => true
  | S n =>
    match s, t with
    | EmptyString, EmptyString => true
    | String x s, String y t => (x =? y)%char && strneq n s t
    | _, _ => false
    end
  end.
(** strcpy into format[16] (MESH_ExportToFile.c 34-37, MESH_ImportFromFile.c 20-23). *)
Definition copy16 (s : string) : result string := if (String.length s <=? 15)%nat then Ok s else Undef.

(** MESH_ExportToFile.c 39-48, MESH_ImportFromFile.c 25-34: what follows the first
    dot, or the second if the name starts with one. *)
Definition extension (name : string) : result (option string) :=
  let first := match name with String c _ => (c =? ".")%char | EmptyString => false end in
  o <- (if first then
          match strchr name "." with
          | None => Undef
          | Some e => e <- past e ;; Ok (strchr e ".")
          end
        else Ok (strchr name ".")) ;;
  match o with
  | None => Ok None
  | Some e => e <- past e ;; Ok (Some e)
  end.

(** MESH_ExportToFile.c 36-66: the format; [None]: returns -1. *)
Definition export_format (name : string) (outformat : option string) : result (option string) :=
  match outformat with
  | Some f => f <- copy16 f ;; Ok (Some f)
  | None =>
    o <- extension name ;;
    match o with
    | Some ext =>
      if ext =? "mstk" then Ok (Some "mstk")
      else if ext =? "gmv" then Ok (Some "gmv")
      else if ext =? "exo" then Ok (Some "exodusii")
      else if ext =? "off" then Ok (Some "off")
      else Ok None
    | None => Ok None
    end
  end.

(** MESH_ExportToFile.c 31-93 *)
Definition MESH_ExportToFile (exo : bool) (name : string) (outformat : option string) : result choice :=
  o <- export_format name outformat ;;
  match o with
  | None => Ok (Returns (-1))
  | Some format =>
    if strneq 4 format "mstk" then Ok (Calls FMstk)
    else if strneq 3 format "gmv" then Ok (Calls FGmv)
    else if strneq 4 format "x3d" then Ok (Calls FX3d)
    else if strneq 3 format "exo" then if exo then Ok (Calls FExo) else Ok (Returns 0)
    else if strneq 3 format "stl" then Ok (Calls FStl)
    else if strneq 3 format "off" then Ok (Calls FOff)
    else if strneq 3 format "dx" then Ok (Calls FDx)
    else Ok (Returns 0)
  end.

(** MESH_ImportFromFile.c 22-54 *)
Definition import_format (name : string) (informat : option string) : result (option string) :=
  match informat with
  | Some f => f <- copy16 f ;; Ok (Some f)
  | None =>
    o <- extension name ;;
    match o with
    | Some ext =>
      if ext =? "mstk" then Ok (Some "mstk")
      else if ext =? "gmv" then Ok (Some "gmv")
      else if ext =? "exo" then Ok (Some "exodusii")
      else if ext =? "par" then Ok (Some "nemesisi")
      else if ext =? "x3d" then Ok (Some "x3d")
      else Ok None
    | None => Ok None
    end
  end.

(** MESH_ImportFromFile.c 18-87; the second result says whether a mesh of unknown
    representation is given representation F1 before the call (60-61). *)
Definition MESH_ImportFromFile (exo : bool) (name : string) (informat : option string) : result (choice * bool) :=
  o <- import_format name informat ;;
  match o with
  | None => Ok (Returns (-1), false)
  | Some format =>
    if format =? "mstk" then Ok (Calls FMstk, false)
    else if format =? "gmv" then Ok (Calls FGmv, true)
    else if format =? "exodusii" then Ok (if exo then Calls FExo else Returns 0, true)
    else if format =? "nemesisi" then Ok (if exo then Calls FNem else Returns 0, true)
    else if format =? "x3d" then Ok (Calls FX3d, true)
    else Ok (Returns 0, true)
  end.
