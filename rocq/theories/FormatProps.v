(** C57: the file format that a name or a format asks for. *)
From Coq Require Import ZArith Bool Ascii String List Lia.
From Verif Require Import Base FormatModel.
Import ListNotations.
Open Scope Z_scope.
Open Scope string_scope.

(** ** Specification *)

Definition dotless (s : string) : Prop := ~ In "."%char (list_ascii_of_string s).
(** A name before the extension: without dots, or with just one in front. *)
Definition plain (stem : string) : Prop := dotless stem /\ stem <> "" \/ exists t, stem = "." ++ t /\ dotless t.
Definition named (name ext : string) : Prop := exists stem, plain stem /\ name = stem ++ "." ++ ext.
(** The extensions that the functions know. *)
Definition written_as (exo : bool) : list (string * choice) :=
  [("mstk", Calls FMstk); ("gmv", Calls FGmv); ("exo", if exo then Calls FExo else Returns 0); ("off", Calls FOff)].
Definition read_as (exo : bool) : list (string * choice) :=
  [("mstk", Calls FMstk); ("gmv", Calls FGmv); ("exo", if exo then Calls FExo else Returns 0); ("par", if exo then Calls FNem else Returns 0); ("x3d", Calls FX3d)].
Definition begins (p s : string) : Prop := exists r, s = p ++ r.

(** ** Strings *)

Lemma strchr_app : forall a b, dotless a -> strchr (a ++ String "." b) "." = Some (String "." b).
Proof.
  induction a as [|x a IH]; intros b H; cbn; auto. destruct (Ascii.eqb_spec x ".") as [->|N]. exfalso. apply H. left; auto. apply IH. intros HH. apply H. right; auto.
Qed.
Lemma strchr_some : forall s e, strchr s "." = Some e -> exists a b, s = a ++ "." ++ b /\ dotless a /\ e = "." ++ b.
Proof.
  induction s as [|x s IH]; intros e H; cbn in H; [discriminate|]. destruct (Ascii.eqb_spec x ".") as [->|N].
  - inversion H. exists "", s. repeat split. intros [].
  - destruct (IH e H) as (a & b & -> & D & ->). exists (String x a), b. repeat split. intros [E|E]; [congruence|apply D; auto].
Qed.
Lemma strchr_none : forall s b, dotless s -> strchr s "." = None /\ forall a, s <> a ++ "." ++ b.
Proof.
  intros s b H. split.
  - induction s as [|x s IH]; cbn; auto. destruct (Ascii.eqb_spec x ".") as [->|N]. exfalso. apply H. left; auto. apply IH. intros HH. apply H. right; auto.
  - intros a E. apply H. rewrite E. clear. induction a as [|x a IH]; cbn; auto.
Qed.
Lemma strchr_total : forall s, strchr s "." = None -> dotless s.
Proof.
  induction s as [|x s IH]; intros H; cbn in *. intros []. destruct (Ascii.eqb_spec x ".") as [->|N]; [discriminate|]. intros [E|E]; [congruence|apply IH in H; auto].
Qed.
Lemma extension_of : forall name ext, named name ext -> extension name = Ok (Some ext).
Proof.
  intros name ext (stem & [(D & N)|(t & -> & D)] & ->).
  - unfold extension. destruct stem as [|x stem]; [congruence|]. cbn [append]. destruct (Ascii.eqb_spec x ".") as [->|Nx]. exfalso. apply D. left; auto. change (String x (stem ++ String "." ext)) with (String x stem ++ String "." ext). rewrite strchr_app by auto. reflexivity.
  - unfold extension. cbn [append]. cbn [Ascii.eqb Bool.eqb]. cbn [strchr]. rewrite Ascii.eqb_refl. cbn [bind past]. rewrite strchr_app by auto. reflexivity.
Qed.
Lemma extension_ok : forall name, exists o, extension name = Ok o /\ forall ext, o = Some ext <-> named name ext.
Proof.
  intros name. assert (X : exists o, extension name = Ok o /\ forall ext, o = Some ext -> named name ext).
  { unfold extension. destruct name as [|x name]. exists None. split; [reflexivity|discriminate]. destruct (Ascii.eqb_spec x ".") as [->|N].
    - cbn [strchr]. rewrite Ascii.eqb_refl. cbn [bind past]. destruct (strchr name ".") as [e|] eqn:E; cbn [bind].
      + destruct (strchr_some _ _ E) as (a & b & -> & D & ->). cbn. exists (Some b). split; auto. intros ext H. inversion H; subst. exists ("." ++ a). split; auto. right. exists a. auto.
      + exists None. split; auto. discriminate.
    - cbn [bind]. destruct (strchr (String x name) ".") as [e|] eqn:E; cbn [bind].
      + destruct (strchr_some _ _ E) as (a & b & Ea & D & ->). cbn. exists (Some b). split; auto. intros ext H. inversion H; subst. exists a. split; auto. left. split; auto. intros ->. cbn in Ea. congruence.
      + exists None. split; auto. discriminate. }
  destruct X as (o & E & H). exists o. split; auto. intros ext. split; auto. intros HH. apply extension_of in HH. congruence.
Qed.
Lemma strneq_refl : forall p r, strneq (String.length p) (p ++ r) p = true.
Proof. induction p as [|x p IH]; intros; cbn; auto. rewrite Ascii.eqb_refl. apply IH. Qed.
Lemma strneq_begins : forall p s, strneq (String.length p) s p = true <-> begins p s.
Proof.
  intros p s. split; [|intros (r & ->); apply strneq_refl]. revert s. induction p as [|x p IH]; intros s H. exists s. auto. cbn in H. destruct s as [|y s]; [discriminate|]. apply andb_prop in H. destruct H as (E & H). apply Ascii.eqb_eq in E. subst y. destruct (IH s H) as (r & ->). exists r. auto.
Qed.
Lemma strneq_eq : forall p s, strneq (S (String.length p)) s p = true <-> s = p.
Proof.
  induction p as [|x p IH]; intros s; destruct s as [|y s]; split; intros H; try discriminate; auto.
  - change (strneq (S (String.length (String x p))) (String y s) (String x p)) with ((y =? x)%char && strneq (S (String.length p)) s p) in H. apply andb_prop in H. destruct H as (E & H). apply Ascii.eqb_eq in E. apply IH in H. congruence.
  - change (strneq (S (String.length (String x p))) (String y s) (String x p)) with ((y =? x)%char && strneq (S (String.length p)) s p). inversion H; subst. rewrite Ascii.eqb_refl. apply IH. auto.
Qed.

(** ** By the name *)

(** The extension decides, and a name without a known one is refused with -1. *)
Theorem C57_export : forall exo name, exists c, MESH_ExportToFile exo name None = Ok c /\
  (forall ext c', named name ext -> In (ext, c') (written_as exo) -> c = c') /\
  ((forall ext c', named name ext -> ~ In (ext, c') (written_as exo)) -> c = Returns (-1)).
Proof.
  intros exo name. destruct (extension_ok name) as (o & E & H). unfold MESH_ExportToFile, export_format. rewrite E. cbn [bind]. destruct exo; (destruct o as [ext|]; [|eexists; split; [reflexivity|]; split; auto; intros e c' He; apply H in He; discriminate]).
  - assert (N : named name ext) by (apply H; auto). assert (U : forall e, named name e -> e = ext) by (intros e He; apply H in He; congruence).
    repeat match goal with |- context [ext =? ?s] => destruct (String.eqb_spec ext s) as [->|?]; [eexists; split; [cbn; reflexivity|]; split; [intros e c' He Hi; apply U in He; subst e; cbn in Hi; intuition congruence|
      intros HH; exfalso; eapply (HH _ _ N); cbn; tauto]|] end.
    eexists. split; [reflexivity|]. split; auto. intros e c' He Hi. apply U in He. subst e. cbn in Hi. intuition congruence.
  - assert (N : named name ext) by (apply H; auto). assert (U : forall e, named name e -> e = ext) by (intros e He; apply H in He; congruence).
    repeat match goal with |- context [ext =? ?s] => destruct (String.eqb_spec ext s) as [->|?]; [eexists; split; [cbn; reflexivity|]; split; [intros e c' He Hi; apply U in He; subst e; cbn in Hi; intuition congruence|
      intros HH; exfalso; eapply (HH _ _ N); cbn; tauto]|] end.
    eexists. split; [reflexivity|]. split; auto. intros e c' He Hi. apply U in He. subst e. cbn in Hi. intuition congruence.
Qed.
Print Assumptions C57_export.
(** Meshes of unknown representation become F1 unless the format is MSTK's own or
    the name is refused. *)
Theorem C57_import : forall exo name, exists c f1, MESH_ImportFromFile exo name None = Ok (c, f1) /\
  (forall ext c', named name ext -> In (ext, c') (read_as exo) -> c = c') /\
  ((forall ext c', named name ext -> ~ In (ext, c') (read_as exo)) -> c = Returns (-1)) /\ (f1 = false <-> c = Calls FMstk \/ c = Returns (-1)).
Proof.
  intros exo name. destruct (extension_ok name) as (o & E & H). unfold MESH_ImportFromFile, import_format. rewrite E. cbn [bind]. destruct exo; (destruct o as [ext|]; [|eexists _, _; split; [reflexivity|]; split; [|split; auto; tauto]; intros e c' He; apply H in He; discriminate]).
  - assert (N : named name ext) by (apply H; auto). assert (U : forall e, named name e -> e = ext) by (intros e He; apply H in He; congruence).
    repeat match goal with |- context [ext =? ?s] => destruct (String.eqb_spec ext s) as [->|?]; [eexists _, _; split; [cbn; reflexivity|]; split; [intros e c' He Hi; apply U in He; subst e; cbn in Hi; intuition congruence|
      split; [intros HH; exfalso; eapply (HH _ _ N); cbn; tauto|intuition congruence]]|] end.
    eexists _, _. split; [reflexivity|]. split; [|split; auto; tauto]. intros e c' He Hi. apply U in He. subst e. cbn in Hi. intuition congruence.
  - assert (N : named name ext) by (apply H; auto). assert (U : forall e, named name e -> e = ext) by (intros e He; apply H in He; congruence).
    repeat match goal with |- context [ext =? ?s] => destruct (String.eqb_spec ext s) as [->|?]; [eexists _, _; split; [cbn; reflexivity|]; split; [intros e c' He Hi; apply U in He; subst e; cbn in Hi; intuition congruence|
      split; [intros HH; exfalso; eapply (HH _ _ N); cbn; tauto|intuition congruence]]|] end.
    eexists _, _. split; [reflexivity|]. split; [|split; auto; tauto]. intros e c' He Hi. apply U in He. subst e. cbn in Hi. intuition congruence.
Qed.
Print Assumptions C57_import.
(** A name that both accept is written and read in the same format. *)
Theorem C57_agree : forall exo name f g b, MESH_ExportToFile exo name None = Ok (Calls f) -> MESH_ImportFromFile exo name None = Ok (Calls g, b) -> f = g.
Proof.
  intros exo name f g b HE HI. destruct (C57_export exo name) as (c & E1 & A1 & B1). destruct (C57_import exo name) as (c2 & f1 & E2 & A2 & B2 & _). rewrite HE in E1. inversion E1; subst c. rewrite HI in E2. inversion E2; subst c2 f1.
  destruct (extension_ok name) as (o & E & H). destruct o as [ext|]. 2: { exfalso. assert (X : Calls f = Returns (-1)) by (apply B1; intros e c' He; apply H in He; discriminate). discriminate. }
  assert (N : named name ext) by (apply H; auto). assert (U : forall e, named name e -> e = ext) by (intros e He; apply H in He; congruence).
  assert (X : exists c, In (ext, c) (written_as exo)). { destruct (in_dec string_dec ext (map fst (written_as exo))) as [I|I]. apply in_map_iff in I. destruct I as ([e c] & <- & I). eauto. exfalso. assert (X : Calls f = Returns (-1)); [|discriminate]. apply B1. intros e c' He Hi. apply U in He. subst e. apply I, in_map_iff. exists (ext, c'). auto. }
  assert (Y : exists c, In (ext, c) (read_as exo)). { destruct (in_dec string_dec ext (map fst (read_as exo))) as [I|I]. apply in_map_iff in I. destruct I as ([e c] & <- & I). eauto. exfalso. assert (Y : Calls g = Returns (-1)); [|discriminate]. apply B2. intros e c' He Hi. apply U in He. subst e. apply I, in_map_iff. exists (ext, c'). auto. }
  destruct X as (c & Hc), Y as (c2 & Hc2). pose proof (A1 _ _ N Hc) as Q1. pose proof (A2 _ _ N Hc2) as Q2. clear - Hc Hc2 Q1 Q2. subst c c2. destruct exo; cbn in Hc, Hc2; repeat destruct Hc as [Hc|Hc]; try tauto; inversion Hc; subst; repeat destruct Hc2 as [Hc2|Hc2]; try tauto; inversion Hc2; auto.
Qed.
Print Assumptions C57_agree.

(** ** By the format *)

(** A format of up to 15 characters is looked up: some by their first letters, the
    others as a whole; a longer one is written beyond the end of the buffer. *)
Theorem C57_export_as : forall exo name f,
  (15 < String.length f -> MESH_ExportToFile exo name (Some f) = Undef)%nat /\
  ((String.length f <= 15)%nat -> exists c, MESH_ExportToFile exo name (Some f) = Ok c /\
     (begins "mstk" f -> c = Calls FMstk) /\ (begins "gmv" f -> c = Calls FGmv) /\ (begins "exo" f -> c = if exo then Calls FExo else Returns 0) /\ (begins "stl" f -> c = Calls FStl) /\ (begins "off" f -> c = Calls FOff) /\
     (f = "x3d" -> c = Calls FX3d) /\ (f = "dx" -> c = Calls FDx) /\
     (f <> "x3d" -> f <> "dx" -> (forall p, In p ["mstk"; "gmv"; "exo"; "stl"; "off"] -> ~ begins p f) -> c = Returns 0)).
Proof.
  intros exo name f. unfold MESH_ExportToFile, export_format, copy16. destruct (Nat.leb_spec (String.length f) 15) as [L|L]; split; intros HL; try lia; auto. cbn [bind].
  pose proof (strneq_begins "mstk" f) as B1. pose proof (strneq_begins "gmv" f) as B2. pose proof (strneq_begins "exo" f) as B3. pose proof (strneq_begins "stl" f) as B4. pose proof (strneq_begins "off" f) as B5. pose proof (strneq_eq "x3d" f) as B6. pose proof (strneq_eq "dx" f) as B7. cbn [String.length] in *.
  assert (D : forall p q, begins p f -> begins q f -> match p, q with String x _, String y _ => x = y | _, _ => True end). { intros p q (r & E1) (s & E2). destruct p as [|x p], q as [|y q]; auto. rewrite E1 in E2. cbn in E2. congruence. }
  assert (X3 : f = "x3d" -> begins "x3d" f) by (intros ->; exists ""; auto). assert (XD : f = "dx" -> begins "dx" f) by (intros ->; exists ""; auto).
  assert (K : forall p q, In p ["mstk"; "gmv"; "exo"; "stl"; "off"; "x3d"; "dx"] -> In q ["mstk"; "gmv"; "exo"; "stl"; "off"; "x3d"; "dx"] -> begins p f -> begins q f -> p = q).
  { intros p q Hp Hq P Q. specialize (D p q P Q). cbn in Hp, Hq. repeat destruct Hp as [<-|Hp]; try tauto; repeat destruct Hq as [<-|Hq]; try tauto; discriminate. }
  assert (KK : forall p q, begins p f -> begins q f -> In p ["mstk"; "gmv"; "exo"; "stl"; "off"; "x3d"; "dx"] -> In q ["mstk"; "gmv"; "exo"; "stl"; "off"; "x3d"; "dx"] -> p <> q -> False) by (intros p q P Q Hp Hq N; apply N, K; auto). clear K D.
  destruct (strneq 4 f "mstk"). { pose proof (proj1 B1 eq_refl) as P. eexists. split; [reflexivity|]. repeat split; intros; auto; exfalso; try (match goal with HH : f = "x3d" |- _ => pose proof (X3 HH) | HH : f = "dx" |- _ => pose proof (XD HH) | _ => idtac end; match goal with HH : begins ?q f |- _ => apply (KK "mstk" q P HH); [cbn; tauto|cbn; tauto|discriminate] end). match goal with HH : forall p, In p _ -> ~ begins p f |- _ => eapply HH; [|exact P]; cbn; tauto end. }
  destruct (strneq 3 f "gmv"). { pose proof (proj1 B2 eq_refl) as P. eexists. split; [reflexivity|]. repeat split; intros; auto; exfalso; try (match goal with HH : f = "x3d" |- _ => pose proof (X3 HH) | HH : f = "dx" |- _ => pose proof (XD HH) | _ => idtac end; match goal with HH : begins ?q f |- _ => apply (KK "gmv" q P HH); [cbn; tauto|cbn; tauto|discriminate] end). match goal with HH : forall p, In p _ -> ~ begins p f |- _ => eapply HH; [|exact P]; cbn; tauto end. }
  destruct (strneq 4 f "x3d"). { pose proof (proj1 B6 eq_refl) as P0. pose proof (X3 P0) as P. eexists. split; [reflexivity|]. repeat split; intros; auto; exfalso; try (match goal with HH : f = "x3d" |- _ => pose proof (X3 HH) | HH : f = "dx" |- _ => pose proof (XD HH) | _ => idtac end; match goal with HH : begins ?q f |- _ => apply (KK "x3d" q P HH); [cbn; tauto|cbn; tauto|discriminate] end). all: congruence. }
  destruct (strneq 3 f "exo"). { pose proof (proj1 B3 eq_refl) as P. exists (if exo then Calls FExo else Returns 0). split; [destruct exo; reflexivity|]. repeat split; intros; auto; exfalso; try (match goal with HH : f = "x3d" |- _ => pose proof (X3 HH) | HH : f = "dx" |- _ => pose proof (XD HH) | _ => idtac end; match goal with HH : begins ?q f |- _ => apply (KK "exo" q P HH); [cbn; tauto|cbn; tauto|discriminate] end). match goal with HH : forall p, In p _ -> ~ begins p f |- _ => eapply HH; [|exact P]; cbn; tauto end. }
  destruct (strneq 3 f "stl"). { pose proof (proj1 B4 eq_refl) as P. eexists. split; [reflexivity|]. repeat split; intros; auto; exfalso; try (match goal with HH : f = "x3d" |- _ => pose proof (X3 HH) | HH : f = "dx" |- _ => pose proof (XD HH) | _ => idtac end; match goal with HH : begins ?q f |- _ => apply (KK "stl" q P HH); [cbn; tauto|cbn; tauto|discriminate] end). match goal with HH : forall p, In p _ -> ~ begins p f |- _ => eapply HH; [|exact P]; cbn; tauto end. }
  destruct (strneq 3 f "off"). { pose proof (proj1 B5 eq_refl) as P. eexists. split; [reflexivity|]. repeat split; intros; auto; exfalso; try (match goal with HH : f = "x3d" |- _ => pose proof (X3 HH) | HH : f = "dx" |- _ => pose proof (XD HH) | _ => idtac end; match goal with HH : begins ?q f |- _ => apply (KK "off" q P HH); [cbn; tauto|cbn; tauto|discriminate] end). match goal with HH : forall p, In p _ -> ~ begins p f |- _ => eapply HH; [|exact P]; cbn; tauto end. }
  destruct (strneq 3 f "dx"). { pose proof (proj1 B7 eq_refl) as P0. pose proof (XD P0) as P. eexists. split; [reflexivity|]. repeat split; intros; auto; exfalso; try (match goal with HH : f = "x3d" |- _ => pose proof (X3 HH) | HH : f = "dx" |- _ => pose proof (XD HH) | _ => idtac end; match goal with HH : begins ?q f |- _ => apply (KK "dx" q P HH); [cbn; tauto|cbn; tauto|discriminate] end). all: congruence. }
  eexists. split; [reflexivity|]. clear KK. repeat split; intros H; auto; exfalso; try (apply B1 in H; discriminate); try (apply B2 in H; discriminate); try (apply B3 in H; discriminate); try (apply B4 in H; discriminate); try (apply B5 in H; discriminate); try (apply B6 in H; discriminate); try (apply B7 in H; discriminate).
Qed.
Print Assumptions C57_export_as.
(** Reading takes whole formats only. *)
Theorem C57_import_as : forall exo name f,
  (15 < String.length f -> MESH_ImportFromFile exo name (Some f) = Undef)%nat /\
  ((String.length f <= 15)%nat -> exists c f1, MESH_ImportFromFile exo name (Some f) = Ok (c, f1) /\ (f1 = false <-> f = "mstk") /\
     forall g, c = Calls g <-> In (f, g) ([("mstk", FMstk); ("gmv", FGmv); ("x3d", FX3d)] ++ if exo then [("exodusii", FExo); ("nemesisi", FNem)] else [])).
Proof.
  intros exo name f. unfold MESH_ImportFromFile, import_format, copy16. destruct (Nat.leb_spec (String.length f) 15) as [L|L]; split; intros HL; try lia; auto. cbn [bind].
  repeat match goal with |- context [f =? ?s] => destruct (String.eqb_spec f s) as [->|?]; [eexists _, _; split; [reflexivity|]; split; [intuition congruence|]; intros g; destruct exo; cbn; intuition congruence|] end.
  eexists _, _. split; [reflexivity|]. split. intuition congruence. intros g; destruct exo; cbn; intuition congruence.
Qed.
Print Assumptions C57_import_as.

(** ** Examples *)

Example C57_export_ex : named "./cube.exo" "exo" /\ named "cube.off" "off" /\ In ("exo", Calls FExo) (written_as true) /\
  MESH_ExportToFile true "./cube.exo" None = Ok (Calls FExo) /\ MESH_ExportToFile false "./cube.exo" None = Ok (Returns 0) /\ MESH_ExportToFile true "cube.off" None = Ok (Calls FOff) /\ MESH_ExportToFile true "cube" None = Ok (Returns (-1)).
Proof.
  split. exists "./cube". split; [|reflexivity]. right. exists "/cube". split; [reflexivity|]. unfold dotless; cbn; intuition discriminate. split. exists "cube". split; [|reflexivity]. left. split; [|discriminate]. unfold dotless; cbn; intuition discriminate.
  split. cbn; tauto. repeat split; reflexivity.
Qed.
Example C57_import_ex : named "cube.par" "par" /\ In ("par", Calls FNem) (read_as true) /\ MESH_ImportFromFile true "cube.par" None = Ok (Calls FNem, true) /\ MESH_ImportFromFile true "cube.mstk" None = Ok (Calls FMstk, false).
Proof. split. exists "cube". split; [|reflexivity]. left. split; [|discriminate]. unfold dotless; cbn; intuition discriminate. split. cbn; tauto. split; reflexivity. Qed.
Example C57_agree_ex : MESH_ExportToFile true "./cube.exo" None = Ok (Calls FExo) /\ MESH_ImportFromFile true "./cube.exo" None = Ok (Calls FExo, true).
Proof. split; reflexivity. Qed.
Example C57_export_as_ex : begins "gmv" "gmvascii" /\ MESH_ExportToFile true "cube.off" (Some "gmvascii") = Ok (Calls FGmv) /\ MESH_ExportToFile true "cube.off" (Some "dxf") = Ok (Returns 0) /\ MESH_ExportToFile true "a" (Some "mstk-version-1.0") = Undef.
Proof. split. exists "ascii". reflexivity. repeat split; reflexivity. Qed.
Example C57_import_as_ex : (String.length "nemesisi" <= 15)%nat /\ MESH_ImportFromFile true "a" (Some "nemesisi") = Ok (Calls FNem, true) /\ MESH_ImportFromFile false "a" (Some "nemesisi") = Ok (Returns 0, true).
Proof. split. cbn. lia. split; reflexivity. Qed.

(** ** Refutations *)

(** Names ending in .mstk that neither function takes: a dot in a directory, a
    directory above, a version number. *)
Theorem C57_names_refuted : exists names, Datatypes.length names = 3%nat /\ NoDup names /\ forall name, In name names -> (exists stem, stem <> "" /\ name = stem ++ ".mstk") /\
  forall exo, MESH_ExportToFile exo name None = Ok (Returns (-1)) /\ MESH_ImportFromFile exo name None = Ok (Returns (-1), false).
Proof.
  exists ["../cube.mstk"; "run.d/cube.mstk"; "cube-1.2.mstk"]. split. reflexivity. split. repeat constructor; cbn; intuition discriminate.
  intros name [<-|[<-|[<-|[]]]]; (split; [|intros exo; split; reflexivity]). exists "../cube". split; [discriminate|reflexivity]. exists "run.d/cube". split; [discriminate|reflexivity]. exists "cube-1.2". split; [discriminate|reflexivity].
Qed.
Print Assumptions C57_names_refuted.
(** Formats that are written and read, but not under the same name: X3D files are
    read by their extension and not written by it; format "exo" is written and not
    read. *)
Theorem C57_both_refuted : exists name f, MESH_ImportFromFile true name None = Ok (Calls FX3d, true) /\ MESH_ExportToFile true name None = Ok (Returns (-1)) /\
  MESH_ExportToFile true name (Some f) = Ok (Calls FExo) /\ MESH_ImportFromFile true name (Some f) = Ok (Returns 0, true).
Proof. exists "cube.x3d", "exo". repeat split; reflexivity. Qed.
Print Assumptions C57_both_refuted.
(** Sixteen characters and the 0 at the end do not fit. *)
Theorem C57_overflow_refuted : exists f, String.length f = 16%nat /\ forall exo name, MESH_ExportToFile exo name (Some f) = Undef /\ MESH_ImportFromFile exo name (Some f) = Undef.
Proof. exists "mstk-version-1.0". split. reflexivity. intros. split; reflexivity. Qed.
Print Assumptions C57_overflow_refuted.
