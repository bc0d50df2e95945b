(** What a user expects of the extension's life, read off what it shows (the
    outputs) and what it is told (the labels of Workspaces.v). *)
From Coq Require Import String.
From Verif Require Import Base Workspaces.
Open Scope nat_scope.

(** The folders of the servers started, in order, and the numbers of those stopped *)
Definition servers (os : list (list output)) : list text :=
  concat (map (fun o => match o with OStart f _ _ _ => [f] | _ => [] end) (concat os)).
Definition stopped (os : list (list output)) : list nat :=
  concat (map (fun o => match o with OStop n => [n] | _ => [] end) (concat os)).
(** Server number [n] runs, for folder [f] *)
Definition runs (os : list (list output)) (f : text) (n : nat) : Prop :=
  nth_error (servers os) n = Some f /\ ~ In n (stopped os).
(** How often the extension was activated *)
Definition activations (os : list (list output)) : nat :=
  length (filter (fun o => match o with OActivate => true | _ => false end) (concat os)).
(** The last activation has ended well; it has failed *)
Definition activated (os : list (list output)) : Prop :=
  exists a b, concat os = a ++ OActivated :: b /\ ~ In OActivate b.
Definition failed (os : list (list output)) : Prop :=
  exists a b, concat os = a ++ OActivationFailed :: b /\ ~ In OActivate b.

(** A document on disk in the Move language, or a Dove.toml *)
Definition move_document (d : doc) : Prop :=
  d_scheme d = `"file" /\ (d_language d = `"move" \/ exists a, d_path d = a ++ `"Dove.toml").
(** The editor has shown, or saved, document [d] *)
Definition shown (h : list label) (d : doc) : Prop :=
  In (LActivate (Some d)) h \/ In (LEditor (Some d)) h \/ In (LSave d) h \/ In (LReload (Some d)) h
  \/ (exists b, In (LSettings b (Some d)) h) \/ (exists t a, In (LMeta t a (Some d)) h).

(** No initialisation of a workspace is under way *)
Definition settled (st : state) : Prop :=
  Forall (fun k => match t_phase k with WStat _ _ | WBoot _ _ | WMeta _ _ _ | WStart _ _ _ => False | _ => True end) (tasks st).
(** Reloads happen only then *)
Definition quiet (h : list label) : Prop :=
  forall h1 l h2 st os st' o, h = h1 ++ l :: h2 -> run init_state h1 = Some (st, os) -> step st l = Some (st', o) ->
    In OReloaded o -> settled st.

(** The disposables of a whole activation *)
Definition all_subs (g : nat) : list sub :=
  [SFactory g; SEditor g; SSaveInit g; SCommand g; SSettings g; SCreate g; SDelete g; SSaveCheck g].
(** Answers to the calls made for initialisation [t]: the manifest exists, the
    binaries are these, the metadata is this *)
Definition agrees (t : nat) (execs : text * text) (m : metadata) (l : label) : Prop :=
  l = LStat t true \/ l = LBoot t (Some execs) \/ exists a, l = LMeta t (IsMetadata m) a.

(** The folders of the manifests among some files, in order *)
Inductive manifests : list doc -> list text -> Prop :=
| man_none : manifests [] []
| man_here d f r fs : d_folder d = Some f -> (exists a, d_path d = a ++ `"Dove.toml") -> manifests r fs -> manifests (d :: r) (f :: fs)
| man_other d r fs : d_folder d = None \/ ~ (exists a, d_path d = a ++ `"Dove.toml") -> manifests r fs -> manifests (d :: r) fs.
(** Answers to the questions of task [t], one after the other: the binaries are
    there, and the metadata of each manifest has these errors *)
Definition invalid_answers (t : nat) (execs : text * text) (a : option doc) (es : list text) : list label :=
  flat_map (fun e => [LBoot t (Some execs); LMeta t (NoMetadata e) a]) es.
