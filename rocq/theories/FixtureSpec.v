(** Databases described by entries (a path, a text with markers, perhaps a new
    source root), stated without the loop that makes them. *)
From Coq Require Import String.
From Verif Require Import Base Utf8 Vfs VfsPath FileSet Database Stdx StdxSpec Fixture.
Local Open Scope N_scope.

Definition cursor : text := [36; 48].          (* $0 *)
Definition escaped_cursor : text := [92; 36; 48].  (* \$0 *)

(** Every [\$0] becomes [$0]. *)
Inductive unescaped : text -> text -> Prop :=
| un_end : unescaped [] []
| un_marker r r' : unescaped r r' -> unescaped (escaped_cursor ++ r) (cursor ++ r')
| un_char c r r' : (forall x, c :: r <> escaped_cursor ++ x) -> unescaped r r' -> unescaped (c :: r) (c :: r').

(** [shown t s p]: an entry with the text [t] makes a file with the text [s],
    and marks the place [p] in it. *)
Inductive shown : text -> text -> option place -> Prop :=
| shown_plain t : ~ occurs cursor t -> shown t t None
| shown_escaped t s : occurs escaped_cursor t -> unescaped t s -> shown t s None
| shown_offset a b : ~ occurs escaped_cursor (a ++ cursor ++ b) -> ~ occurs cursor (a ++ b) ->
    shown (a ++ cursor ++ b) (a ++ b) (Some (inr (tlen a)))
| shown_range a b c : ~ occurs escaped_cursor (a ++ cursor ++ b ++ cursor ++ c) -> ~ occurs cursor (a ++ b) ->
    shown (a ++ cursor ++ b ++ cursor ++ c) (a ++ b ++ c) (Some (inl (tlen a, tlen a + tlen b))).

(** Texts whose first marker hides a second one: taking the first [$0] out of
    [$$00] leaves [$0]. *)
Definition garbled (t : text) : Prop :=
  ~ occurs escaped_cursor t /\ exists a b, t = a ++ [36; 36; 48; 48] ++ b /\ ~ occurs cursor (a ++ [36]).

Definition marks (t : text) : Prop := occurs cursor t /\ ~ occurs escaped_cursor t.

(** The number of the source root that the [i]-th entry belongs to: the
    number of entries up to it that start a new one. *)
Definition starts_root (e : fixture) : bool := match fx_root e with Some _ => true | None => false end.
Definition root_number (es : list fixture) (i : nat) : nat := List.length (filter starts_root (firstn (S i) es)).
(** Whether the root number [r] is a library: the first is not, the others as
    the entry that starts them says. *)
Definition root_is (es : list fixture) (r : nat) (library : bool) : Prop :=
  (r = 0%nat /\ library = false) \/
  exists i e, nth_error es i = Some e /\ root_number es i = r /\
    fx_root e = Some (if library then `"library" else `"local").

(** Entries that describe a database. *)
Definition acceptable (es : list fixture) : Prop :=
  (forall e, In e es ->
     (exists r, fx_path e = 47 :: r) /\
     (fx_deps e = [] \/ fx_krate e <> None) /\
     (fx_root e = None \/ fx_root e = Some (`"local") \/ fx_root e = Some (`"library")) /\
     ~ garbled (fx_text e)) /\
  (forall i j e f, nth_error es i = Some e -> nth_error es j = Some f ->
     marks (fx_text e) -> marks (fx_text f) -> i = j).

(** The database and the position the entries describe. *)
Record described (es : list fixture) (db : database) (files : list N) (position : option (N * place)) : Prop := {
  d_files : files = map N.of_nat (seq 0 (List.length es));
  d_text : forall i e, nth_error es i = Some e ->
    exists t p, shown (fx_text e) t p /\ file_text db (N.of_nat i) = Ok t;
  d_position : forall id p, position = Some (id, p) <->
    exists i e t, id = N.of_nat i /\ nth_error es i = Some e /\ shown (fx_text e) t (Some p);
  d_root : forall i e, nth_error es i = Some e -> file_source_root db (N.of_nat i) = Ok (N.of_nat (root_number es i));
  d_path : forall i e, nth_error es i = Some e -> exists root,
    get_source_root db (N.of_nat (root_number es i)) = Ok root /\
    root_is es (root_number es i) (sr_library root) /\
    fs_path_for_file (sr_files root) (N.of_nat i) = Some (Virtual (fx_path e));
  d_others : forall id, N.of_nat (List.length es) <= id -> forall t, file_text db id <> Ok t }.

(** Lines that a description of files must not contain: metadata that does not
    start the line, and comments that look like misspelt metadata. *)
Definition bad_line (is_uppercase : char -> bool) (line : text) : Prop :=
  (occurs (`"//-") line /\ forall r, line <> `"//-" ++ r) \/
  ((exists r, line = `"// " ++ r) /\ occurs (`":") line /\ ~ occurs (`"::") line /\
   forall c, In c line -> is_uppercase c = false).
