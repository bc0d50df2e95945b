(** Model of crates/test_utils/src/fixture.rs and crates/base_db/src/fixture.rs:
    descriptions of files for tests and the databases made from them. *)
From Coq Require Import String.
From Verif Require Import Base Utf8 Vfs VfsPath FileSet Database Stdx.
Local Open Scope N_scope.

(** test_utils/src/fixture.rs:66-78 [Fixture].  Left out: the fields nothing
    reads (extern_prelude, cfg_atoms, cfg_key_values, edition, env). *)
Record fixture := Fixture {
  fx_path : text;
  fx_text : text;
  fx_krate : option text;
  fx_deps : list text;
  fx_root : option text }.

(** core: [str::contains] *)
Definition contains (t p : text) : bool := match find_str p t with Some _ => true | None => false end.

Section Uppercase.
(** core: [char::is_uppercase], a table of Unicode *)
Context (is_uppercase : char -> bool).

Definition meta_mark : text := `"//-".
(** fixture.rs:105-131, the checks of one line *)
Definition check_line (line : text) : res unit :=
  let! _ := if contains line meta_mark then assert_ (starts_with line meta_mark) else Ok tt in
  if starts_with line (`"// ") && contains line (`":") && negb (contains line (`"::"))
     && forallb (fun c => negb (is_uppercase c)) line
  then Panic PUnreachable else Ok tt.
(** fixture.rs:133-135: [res.last_mut()] and [push_str] *)
Definition push_last (res_ : list fixture) (line : text) : list fixture :=
  match rev res_ with
  | [] => res_
  | e :: before => rev before ++ [Fixture (fx_path e) (fx_text e ++ line) (fx_krate e) (fx_deps e) (fx_root e)]
  end.
Fixpoint parse_lines (lines : list text) (res_ : list fixture) : res (list fixture) :=
  match lines with
  | [] => Ok res_
  | line :: rest => let! _ := check_line line in parse_lines rest (push_last res_ line)
  end.
(** fixture.rs:98-139 [Fixture::parse]; the branch that adds a fixture is
    commented out in the code *)
Definition fixture_parse (ra_fixture : text) : res (list fixture) :=
  let! fixture_ := trim_indent ra_fixture in
  let default := if contains fixture_ meta_mark then [] else [`"//- /main.move"] in
  parse_lines (default ++ split_inclusive fixture_) [].
End Uppercase.

(** core: [str::replace] of a non-empty pattern: occurrences from the left that
    do not overlap; [skip] characters belong to the occurrence just replaced *)
Fixpoint replace_from (skip : nat) (p q t : text) : text :=
  match t with
  | [] => []
  | c :: r =>
      match skip with
      | S k => replace_from k p q r
      | O => if starts_with t p then q ++ replace_from (List.length p - 1) p q r else c :: replace_from 0 p q r
      end
  end.
Definition str_replace (p q t : text) : text := replace_from 0 p q t.

(** test_utils/src/lib.rs:29 *)
Definition ESCAPED_CURSOR_MARKER : text := `"\$0".

Definition place : Type := N * N + N.
(** base_db/src/fixture.rs:70-84, the variables of [ChangeFixture::parse] *)
Record fx_state := {
  fx_files : list N;
  fx_set : file_set;
  fx_library : bool;                         (* current_source_root_kind *)
  fx_next : N;                               (* file_id *)
  fx_roots : list source_root;
  fx_position : option (N * place);
  fx_changes : list (N * option text) }.
Definition fx_start : fx_state :=
  {| fx_files := []; fx_set := file_set_default; fx_library := false; fx_next := 0; fx_roots := [];
     fx_position := None; fx_changes := [] |}.

(** fixture.rs:157-163, the kind of a new source root *)
Definition root_kind (r : option text) : res (option bool) :=
  match r with
  | None => Ok None
  | Some k => if text_eqb k (`"local") then Ok (Some false)
              else if text_eqb k (`"library") then Ok (Some true) else Panic PUnreachable
  end.
(** fixture.rs:87-98, the text of an entry and the position in it *)
Definition entry_text (e : fixture) (id : N) (position : option (N * place)) : res (text * option (N * place)) :=
  if contains (fx_text e) CURSOR_MARKER
  then if contains (fx_text e) ESCAPED_CURSOR_MARKER
       then Ok (str_replace ESCAPED_CURSOR_MARKER CURSOR_MARKER (fx_text e), position)
       else let! (p, t) := extract_range_or_offset (fx_text e) in
            let! _ := assert_ (match position with None => true | Some _ => false end) in
            Ok (t, Some (id, p))
  else Ok (fx_text e, position).
Definition fx_close (s : fx_state) : list source_root :=
  fx_roots s ++ [{| sr_library := fx_library s; sr_files := fx_set s |}].
(** fixture.rs:86-119, one entry *)
Definition fx_step (s : fx_state) (e : fixture) : res fx_state :=
  let! (t, position) := entry_text e (fx_next s) (fx_position s) in
  let! kind := root_kind (fx_root e) in
  let! _ := assert_ (starts_with (fx_path e) [cSlash]) in
  let! _ := assert_ (match fx_deps e, fx_krate e with _ :: _, None => false | _, _ => true end) in
  let '(roots, library, set_) :=
    match kind with
    | Some k => (fx_close s, k, file_set_default)
    | None => (fx_roots s, fx_library s, fx_set s)
    end in
  let! _ := assert_ (starts_with (fx_path e) [cSlash]) in   (* VfsPath::new_virtual_path *)
  let! next := u32_add (fx_next s) 1 in
  Ok {| fx_files := fx_files s ++ [fx_next s];
        fx_set := fs_insert set_ (fx_next s) (Virtual (fx_path e));
        fx_library := library;
        fx_next := next;
        fx_roots := roots;
        fx_position := position;
        fx_changes := fx_changes s ++ [(fx_next s, Some t)] |}.
Fixpoint fx_loop (es : list fixture) (s : fx_state) : res fx_state :=
  match es with
  | [] => Ok s
  | e :: rest => let! s := fx_step s e in fx_loop rest s
  end.

(** fixture.rs:63-67 [ChangeFixture] *)
Record change_fixture := {
  cx_position : option (N * place);
  cx_files : list N;
  cx_change : db_change }.
(** fixture.rs:70-129 [ChangeFixture::parse] from the entries on *)
Definition change_fixture_of (entries : list fixture) : res change_fixture :=
  let! s := fx_loop entries fx_start in
  Ok {| cx_position := fx_position s;
        cx_files := fx_files s;
        cx_change := {| dc_roots := Some (fx_close s); dc_files := fx_changes s |} |}.

Section WithFixture.
Context (is_uppercase : char -> bool).
Definition change_fixture_parse (ra_fixture : text) : res change_fixture :=
  let! entries := fixture_parse is_uppercase ra_fixture in change_fixture_of entries.

(** fixture.rs:17-23 [with_single_file] *)
Definition with_single_file (t : text) : res (database * N) :=
  let! f := change_fixture_parse t in
  let! db := change_apply (cx_change f) db_new in
  let! _ := assert_ (List.length (cx_files f) =? 1)%nat in
  let! id := index (nth_error (cx_files f) 0) in
  Ok (db, id).
(** fixture.rs:25-31 [with_many_files] *)
Definition with_many_files (t : text) : res (database * list N) :=
  let! f := change_fixture_parse t in
  let! db := change_apply (cx_change f) db_new in
  let! _ := assert_ (match cx_position f with None => true | Some _ => false end) in
  Ok (db, cx_files f).
(** fixture.rs:33-39 [with_files] *)
Definition with_files (t : text) : res database :=
  let! (db, _) := with_many_files t in Ok db.
(** fixture.rs:53-61 [with_range_or_offset] *)
Definition with_range_or_offset (t : text) : res (database * N * place) :=
  let! f := change_fixture_parse t in
  let! db := change_apply (cx_change f) db_new in
  let! (id, p) := unwrap (cx_position f) in
  Ok (db, id, p).
(** fixture.rs:41-45 [with_position] with test_utils/src/lib.rs:100-105
    [expect_offset] *)
Definition with_position (t : text) : res (database * N * N) :=
  let! (db, id, p) := with_range_or_offset t in
  match p with inr o => Ok (db, id, o) | inl _ => Panic PUnreachable end.
(** fixture.rs:47-51 [with_range] with test_utils/src/lib.rs:106-111
    [expect_range] *)
Definition with_range (t : text) : res (database * N * (N * N)) :=
  let! (db, id, p) := with_range_or_offset t in
  match p with inl r => Ok (db, id, r) | inr _ => Panic PUnreachable end.
End WithFixture.

Example replace_sample :
  str_replace ESCAPED_CURSOR_MARKER CURSOR_MARKER (`"a\$0\\$0$0") = `"a$0\$0$0".
Proof. reflexivity. Qed.
