(** Which file a URL means, and how the URL of a file is written.  All strings
    are lists of bytes. *)
From Coq Require Import String.
From Verif Require Import Base Utf8 Vfs VfsPath PathSpec AbsPathSpec FileUrl.
Local Open Scope N_scope.

(** The digit [c] has the value [d]. *)
Definition hexadecimal (c d : N) : Prop :=
  (c, d) = (48, 0) \/ (c, d) = (49, 1) \/ (c, d) = (50, 2) \/ (c, d) = (51, 3) \/ (c, d) = (52, 4) \/
  (c, d) = (53, 5) \/ (c, d) = (54, 6) \/ (c, d) = (55, 7) \/ (c, d) = (56, 8) \/ (c, d) = (57, 9) \/
  (c, d) = (65, 10) \/ (c, d) = (66, 11) \/ (c, d) = (67, 12) \/ (c, d) = (68, 13) \/ (c, d) = (69, 14) \/ (c, d) = (70, 15) \/
  (c, d) = (97, 10) \/ (c, d) = (98, 11) \/ (c, d) = (99, 12) \/ (c, d) = (100, 13) \/ (c, d) = (101, 14) \/ (c, d) = (102, 15).

(** [escape s x r]: [s] is an escape [%XX] of the byte [x], then [r]. *)
Inductive escape : bytes -> N -> bytes -> Prop :=
| escape_of a b h l r : hexadecimal a h -> hexadecimal b l -> escape (37 :: a :: b :: r) (16 * h + l) r.

(** The bytes a segment stands for: escapes are resolved, everything else
    stands for itself. *)
Inductive decodes : bytes -> bytes -> Prop :=
| dec_end : decodes [] []
| dec_escape s x r t : escape s x r -> decodes r t -> decodes s (x :: t)
| dec_plain c r t : (forall x r', ~ escape (c :: r) x r') -> decodes r t -> decodes (c :: r) (c :: t).

(** The URL leads to the file reached from the root by the names [ns]: the
    parts of its path, decoded, are followed from the root ([walk]). *)
Definition leads_to (u : url) (ns : list bytes) : Prop :=
  (u_host u = None \/ u_host u = Some (`"localhost")) /\
  exists segments decoded parts,
    segments <> [] /\
    Forall no_slash segments /\
    u_path u = cSlash :: unsplit segments /\
    Forall2 decodes segments decoded /\
    Forall2 (fun d ps => ps <> [] /\ Forall no_slash ps /\ d = unsplit ps) decoded parts /\
    walk [] (concat parts) ns.

(** Names that can occur on the way to a file. *)
Definition file_name (n : bytes) : Prop := name n /\ Forall (fun c => c < 256) n.

Section Written.
Context (escapes : N -> bool).

(** One upper-case hexadecimal digit. *)
Definition upper (d c : N) : Prop := hexadecimal c d /\ ~ (97 <= c <= 102).
(** The only way the server writes a name in a URL: the bytes to be escaped
    as [%XX] in upper case, the others as they are. *)
Inductive written : bytes -> bytes -> Prop :=
| wr_end : written [] []
| wr_plain c n s : c < 128 -> escapes c = false -> written n s -> written (c :: n) (c :: s)
| wr_escape c h l x y n s : 128 <= c \/ escapes c = true -> c = 16 * h + l -> upper h x -> upper l y ->
    written n s -> written (c :: n) (37 :: x :: y :: s).

(** The URL of the file with the names [ns] as the server writes it. *)
Definition canonical (u : url) (ns : list bytes) : Prop :=
  u_scheme u = `"file" /\ u_host u = None /\ u_query u = None /\ u_fragment u = None /\
  exists segments, Forall2 written ns segments /\
    u_path u = cSlash :: unsplit segments.
End Written.
