(** Model of the way documents are named in messages: from_proto.rs
    [abs_path], [vfs_path] and to_proto.rs [url_from_abs_path] (Unix), with the
    functions of the url crate 2.2.2 they call.  All strings here are lists of
    bytes. *)
From Coq Require Import String.
From Verif Require Import Base Utf8 Vfs VfsPath AbsPath.
Local Open Scope N_scope.

Definition cPercent : N := 37.

(** url::Url after parsing.  The path is kept as it is written, with its
    escapes; it starts with '/' unless the URL cannot be a base. *)
Record url := Url {
  u_scheme : bytes;
  u_host : option bytes;
  u_path : bytes;
  u_query : option bytes;
  u_fragment : option bytes }.

(** char::to_digit(16) *)
Definition hex_digit (c : N) : option N :=
  if (48 <=? c) && (c <=? 57) then Some (c - 48)
  else if (65 <=? c) && (c <=? 70) then Some (c - 55)
  else if (97 <=? c) && (c <=? 102) then Some (c - 87)
  else None.

(** percent_encoding::after_percent_sign on the two bytes that follow *)
Definition after_percent_sign (a b : N) : option N :=
  match hex_digit a with
  | Some h => match hex_digit b with Some l => Some (h * 16 + l) | None => None end
  | None => None
  end.
(** percent_encoding::percent_decode: an escape that is not one is kept *)
Fixpoint percent_decode (s : bytes) : bytes :=
  match s with
  | [] => []
  | c :: r =>
      if c =? cPercent
      then match r with
           | a :: (b :: r') =>
               match after_percent_sign a b with
               | Some x => x :: percent_decode r'
               | None => c :: percent_decode r
               end
           | _ => c :: percent_decode r
           end
      else c :: percent_decode r
  end.

(** url::Url::path_segments: the text after the first '/', split at '/' *)
Definition path_segments (u : url) : option (list bytes) :=
  match u_path u with
  | c :: r => if c =? cSlash then Some (split_slash r) else None
  | [] => None
  end.

(** letters a-z and A-Z *)
Definition is_ascii_letter (c : N) : bool :=
  ((97 <=? c) && (c <=? 122)) || ((65 <=? c) && (c <=? 90)).
(** url::file_url_segments_to_pathbuf, Unix; "a windows drive letter must end
    with a slash" *)
Definition file_url_segments_to_pathbuf (segments : list bytes) : bytes :=
  let path := flat_map (fun s => cSlash :: percent_decode s) segments in
  match rev path with
  | b :: a :: _ :: _ => if is_ascii_letter a && ((b =? 58) || (b =? 124)) then path ++ [cSlash] else path
  | _ => path
  end.

(** url::Url::to_file_path, Unix.  The scheme is not looked at. *)
Definition to_file_path (u : url) : option bytes :=
  match path_segments u with
  | None => None
  | Some segments =>
      match u_host u with
      | None => Some (file_url_segments_to_pathbuf segments)
      | Some h => if text_eqb h (`"localhost") then Some (file_url_segments_to_pathbuf segments) else None
      end
  end.

(** from_proto.rs:17-20 [abs_path]; [None] stands for the error "url is not a
    file" *)
Definition abs_path (u : url) : res (option bytes) :=
  match to_file_path u with
  | None => Ok None
  | Some p => let! p := unwrap (abs_path_buf p) in Ok (Some p)
  end.

(** The components of a path of the file system other than the root; Rust
    compares PathBufs by their components. *)
Definition path_names (p : bytes) : list bytes := flat_map comp_text (components p).
(** from_proto.rs:22-24 [vfs_path]; vfs_path.rs:277-281 [VfsPath::from]
    normalises *)
Definition vfs_path (u : url) : res (option vpath) :=
  let! p := abs_path u in Ok (option_map (fun p => Real (path_names (vfs_from p))) p).

Section Escapes.
(** The characters below 128 that the url crate escapes in a path segment. *)
Context (escapes : N -> bool).

Definition upper_hex (d : N) : N := if d <? 10 then 48 + d else 55 + d.
(** percent_encoding::percent_encode *)
Definition percent_encode (s : bytes) : bytes :=
  flat_map (fun c => if (128 <=? c) || escapes c
                     then [cPercent; upper_hex (c / 16); upper_hex (c mod 16)] else [c]) s.

(** url::path_to_file_url_segments, Unix: every component but the root *)
Definition path_to_file_url_segments (p : bytes) : bytes :=
  match path_names p with
  | [] => [cSlash]
  | names => flat_map (fun n => cSlash :: percent_encode n) names
  end.
(** url::Url::from_file_path *)
Definition from_file_path (p : bytes) : option url :=
  if is_absolute p
  then Some (Url (`"file") None (path_to_file_url_segments p) None None)
  else None.

(** to_proto.rs:48-58 [url_from_abs_path]: on Unix no component is a prefix *)
Definition url_from_abs_path (p : bytes) : res url := unwrap (from_file_path p).
End Escapes.

(** The PATH_SEGMENT set of url 2.2.2: controls, space, the double quote, and
    the characters # % / < > ? ` { }. *)
Definition path_segment_set (c : N) : bool :=
  (c <? 32) || (c =? 127) || existsb (N.eqb c) (`" ""#%/<>?`{}").

Definition sample_url (scheme path : bytes) : url := Url scheme None path None None.
(** [file:///dir/a%20%C3%A9.move] *)
Example sample_decoded :
  vfs_path (sample_url (`"file") (`"/dir//a%20%C3%A9%zz.move"))
  = Ok (Some (Real [`"dir"; `"a " ++ [195; 169] ++ `"%zz.move"])).
Proof. reflexivity. Qed.
Example sample_encoded :
  url_from_abs_path path_segment_set (`"/dir/../a b/" ++ [195; 169] ++ `"%.move")
  = Ok (sample_url (`"file") (`"/dir/../a%20b/%C3%A9%25.move")).
Proof. reflexivity. Qed.
