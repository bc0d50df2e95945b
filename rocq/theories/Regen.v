(** Model of the generator's check of its output files (test_utils/src/lib.rs,
    generate_ast/src/generate_all.rs). *)
From Coq Require Import String.
From Verif Require Import Base Fixture.
Local Open Scope N_scope.

(** What [std::fs::read_to_string] finds at a path: [None] if there is no file,
    it cannot be read or is not UTF-8.  The disk maps each path to it. *)
Definition disk : Type := text -> option text.
Definition put (d : disk) (f : text) (c : text) : disk := fun g => if text_eqb g f then Some c else d g.

Section Writable.
(** whether [std::fs::write] succeeds at a path, after [create_dir_all] of its
    parent *)
Variable writable : text -> bool.

(** test_utils/src/lib.rs:429-431 *)
Definition normalize_newlines (s : text) : text := str_replace [cCR; cLF] [cLF] s.

(** test_utils/src/lib.rs:407-427 [try_ensure_file_contents]: the disk
    afterwards, and whether the file was up to date; [Panic] is the [unwrap] of
    the write.  Messages are left out, and that directories are created. *)
Definition try_ensure_file_contents (d : disk) (file contents : text) : res (disk * bool) :=
  let update := if writable file then Ok (put d file contents, false) else Panic PUnwrap in
  match d file with
  | Some old_contents =>
      if text_eqb (normalize_newlines old_contents) (normalize_newlines contents) then Ok (d, true) else update
  | None => update
  end.

(** How a run of the generator ends: it passes, or it panics because a file was
    not up to date, or because a file could not be written. *)
Inductive ending := Passed | NotUpToDate | CannotWrite.

(** test_utils/src/lib.rs:399-403 [ensure_file_contents], for the files of
    generate_all.rs:14-29 in order: the first panic ends the run.  The texts are
    parameters here: they do not depend on the disk (include_str!, KINDS_SRC). *)
Fixpoint generate (d : disk) (files : list (text * text)) : disk * ending :=
  match files with
  | [] => (d, Passed)
  | (file, contents) :: rest =>
      match try_ensure_file_contents d file contents with
      | Ok (d', true) => generate d' rest
      | Ok (d', false) => (d', NotUpToDate)
      | _ => (d, CannotWrite)
      end
  end.
Fixpoint again (n : nat) (d : disk) (files : list (text * text)) : disk :=
  match n with O => d | S n => again n (fst (generate d files)) files end.
End Writable.

(** generate_all.rs:18,22,26, below the root of the project *)
Definition generated_paths : list text :=
  [`"crates/parser/src/syntax_kind/generated.rs"; `"crates/syntax/src/ast/tokens.rs"; `"crates/syntax/src/ast/nodes.rs"].
