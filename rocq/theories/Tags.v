(** Model of crates/test_utils/src/lib.rs: [extract_tags], [extract_annotations].
    A string is the list of its characters; offsets count UTF-8 bytes. *)
From Coq Require Import String.
From Verif Require Import Base Lexer Stdx.
Open Scope N_scope.

(** core: [str::trim] *)
Definition trim_end (t : text) : text := rev (trim_start (rev t)).
Definition trim (t : text) : text := trim_end (trim_start t).
(** text_size: [TextSize::of(&str)], that is [s.len().try_into().unwrap()] *)
Definition text_size_of (t : text) : res N := if tlen t <? u32_bound then Ok (tlen t) else Panic PUnwrap.
(** core: [slice::sort_by_key], a stable sort *)
Section Sort.
  Context {A : Type} (le : A -> A -> bool).
  Fixpoint insert_sorted (x : A) (l : list A) : list A :=
    match l with
    | [] => [x]
    | y :: r => if le x y then x :: l else y :: insert_sorted x r
    end.
  Definition stable_sort (l : list A) : list A := fold_right insert_sorted [] l.
End Sort.

(** ** [extract_tags], test_utils/src/lib.rs:141-181 *)
Definition mark : Type := N * N * option text.
Definition mark_le (a b : mark) : bool :=
  let '(s, e, _) := a in let '(s', e', _) := b in (s <? s') || ((s =? s') && (e <=? e')).
Definition cLt : char := 60.
Definition cGt : char := 62.
(** test_utils/src/lib.rs:142-143 *)
Definition open_tag (tag : text) : text := cLt :: tag.
Definition close_tag (tag : text) : text := cLt :: 47 :: tag ++ [cGt].
(** test_utils/src/lib.rs:152-154: [attr] *)
Definition tag_attr (a : text) : option text := match trim a with [] => None | v => Some v end.

(** test_utils/src/lib.rs:144-178: the loop.  [t] is [text], [out] is [res].
    Fuel: the number of characters left is enough (lemma [loop_fuel]). *)
Fixpoint tags_loop (fuel : nat) (tag t out : text) (stack : list (N * option text)) (ranges : list mark)
  : res (list mark * text * list (N * option text)) :=
  match fuel with
  | O => Fuel
  | S fuel =>
      match find_str [cLt] t with
      | None => Ok (ranges, out ++ t, stack)
      | Some i =>
          let! before := slice_to t i in
          let out := out ++ before in
          let! t := slice_from t i in
          if starts_with t (open_tag tag) then
            let! close_open := unwrap (find_str [cGt] t) in
            (* [text[open.len()..close_open]] *)
            let! upto := slice_to t close_open in
            let! attr := slice_from upto (tlen (open_tag tag)) in
            let! t := slice_from t (close_open + utf8_len cGt) in
            let! from := text_size_of out in
            tags_loop fuel tag t out ((from, tag_attr attr) :: stack) ranges
          else if starts_with t (close_tag tag) then
            let! t := slice_from t (tlen (close_tag tag)) in
            match stack with
            | [] => Panic PUnreachable
            | (from, attr) :: stack =>
                let! to_ := text_size_of out in
                let! _ := assert_ (from <=? to_) in
                tags_loop fuel tag t out stack (ranges ++ [(from, to_, attr)])
            end
          else
            let! t := slice_from t (utf8_len cLt) in
            tags_loop fuel tag t (out ++ [cLt]) stack ranges
      end
  end.
(** test_utils/src/lib.rs:141-181 [extract_tags] *)
Definition extract_tags (t tag : text) : res (list mark * text) :=
  let! (ranges, out, stack) := tags_loop (S (length t)) tag t [] [] [] in
  let! _ := assert_ (match stack with [] => true | _ => false end) in
  Ok (stable_sort mark_le ranges, out).

(** ** [extract_annotations] *)
(** test_utils/src/lib.rs:275-278 [LineAnnotation]: columns are byte offsets in the comment *)
Inductive line_annotation :=
| Annotation (start end_ : N) (content : text) (file : bool)
| Continuation (offset : N) (content : text).

Definition cCaret : char := 94.
Definition cBar : char := 124.
(** core: [str::find] of a character, as the text before it and from it on *)
Fixpoint cut_at (c : char) (t : text) : option (text * text) :=
  match t with
  | [] => None
  | x :: r => if x =? c then Some ([], t)
              else match cut_at c r with Some (a, b) => Some (x :: a, b) | None => None end
  end.
(** core: [chars().take_while(..)] and what is left *)
Fixpoint carets (t : text) : text * text :=
  match t with
  | x :: r => if x =? cCaret then let (a, b) := carets r in (x :: a, b) else ([], t)
  | [] => ([], [])
  end.
Definition file_word : text := `"file".

(** test_utils/src/lib.rs:280-322 [extract_line_annotations]; the string slices
    at the places found are written as splits of the text *)
Fixpoint line_annotations_loop (fuel : nat) (marker : char) (line : text) (offset : N) : res (list line_annotation) :=
  match fuel with
  | O => Fuel
  | S fuel =>
      match cut_at marker line with
      | None => Ok []
      | Some (before, line) =>
          let offset := offset + tlen before in
          let (run, after) := carets line in
          let! (continuation, len, after) :=
            match run, line with
            | [], x :: r => let! _ := assert_ (x =? cBar) in Ok (true, 1, r)
            | [], [] => Panic PAssert
            | _, _ => Ok (false, tlen run, after)
            end in
          let (content, rest) := match cut_at marker after with Some p => p | None => (after, []) end in
          let file := negb continuation && starts_with content file_word in
          let text_ := trim (if file then skipn 4 content else content) in
          let! more := line_annotations_loop fuel marker rest (offset + (len + tlen content)) in
          Ok ((if continuation then Continuation (offset + len) text_
               else Annotation offset (offset + len) text_ file) :: more)
      end
  end.
Definition extract_line_annotations (line : text) : res (list line_annotation) :=
  let marker := if existsb (N.eqb cCaret) line then cCaret else cBar in
  line_annotations_loop (S (length line)) marker line 0.

(** std: [BTreeMap<TextSize, TextSize>] as the list of its entries in the order of the keys *)
Definition line_map := list (N * N).
(** [map.range(k..).next()] *)
Fixpoint first_from (k : N) (m : line_map) : option (N * N) :=
  match m with [] => None | (k', v) :: r => if k <=? k' then Some (k', v) else first_from k r end.
(** [map.split_off(&k)]: the part with keys at least [k] *)
Definition map_split_off (k : N) (m : line_map) : line_map := filter (fun p => k <=? fst p) m.
(** [map.insert(k, v)] *)
Fixpoint map_insert (k v : N) (m : line_map) : line_map :=
  match m with
  | [] => [(k, v)]
  | (k', v') :: r => if k <? k' then (k, v) :: m else if k =? k' then (k, v) :: r else (k', v') :: map_insert k v r
  end.

(** test_utils/src/lib.rs:229-258: the annotations of one line.  [size] is the
    length of the whole text, [off] is [annotation_offset]. *)
Definition found : Type := list (N * N * text).
Fixpoint push_content (res_ : found) (i : nat) (content : text) : found :=
  match res_, i with
  | (s, e, c) :: r, O => (s, e, c ++ [cLF] ++ content ++ [cLF]) :: r
  | x :: r, S i => x :: push_content r i content
  | [], _ => []
  end.
Fixpoint line_loop (size off : N) (map : line_map) (prev : list (N * nat)) (anns : list line_annotation)
    (res_ : found) (this : list (N * nat)) : res (found * list (N * nat)) :=
  match anns with
  | [] => Ok (res_, this)
  | Annotation s e content file :: r =>
      let s := s + off in let e := e + off in
      let this := this ++ [(e, length res_)] in
      let! range := if file then Ok (0, size)
                    else let! p := unwrap (first_from e map) in Ok (s + snd p, e + snd p) in
      line_loop size off map prev r (res_ ++ [(range, content)]) this
  | Continuation o content :: r =>
      let o := o + off in
      let! p := unwrap (find (fun p => fst p =? o) prev) in
      line_loop size off map prev r (push_content res_ (snd p) content) this
  end.

(** test_utils/src/lib.rs:222-273 [extract_annotations].  Simplification: sizes
    are unbounded numbers ([TextSize] is 32 bits wide; a text that long is refused first). *)
Definition slashes : text := [47; 47].
Fixpoint find_split (p t : text) : option (text * text) :=
  if starts_with t p then Some ([], skipn (length p) t) else
  match t with
  | [] => None
  | c :: r => match find_split p r with Some (a, b) => Some (c :: a, b) | None => None end
  end.
Fixpoint annotations_loop (size : N) (lines : list text) (map : line_map) (start : N) (prev : list (N * nat)) (res_ : found)
  : res found :=
  match lines with
  | [] => Ok res_
  | line :: r =>
      let! (len, res_, this) :=
        match find_split slashes line with
        | Some (code, comment) =>
            let! anns := extract_line_annotations comment in
            let! (res_, this) := line_loop size (tlen code + 2) map prev anns res_ [] in
            Ok (tlen code, res_, this)
        | None => Ok (tlen line, res_, [])
        end in
      annotations_loop size r (map_insert len start (map_split_off len map)) (start + tlen line) this res_
  end.
Definition extract_annotations (t : text) : res found :=
  let! size := text_size_of t in
  annotations_loop size (split_inclusive t) [] 0 [] [].

(** The samples of the code's own tests, test_utils/src/lib.rs:182-187 and 343-360. *)
Example tags_sample : extract_tags (`"<tag fn>fn <tag>main</tag>() {}</tag>") (`"tag") =
  Ok ([(0, 12, Some (`"fn")); (3, 7, None)], `"fn main() {}").
Proof. vm_compute. reflexivity. Qed.
Definition lf (l : list text) : text := concat (map (fun x => x ++ [cLF]) l).
Example annotations_sample : extract_annotations (lf [`"fn main() {"; `"    (x,   y);"; `"   //^ a"; `"      //  ^ b"; `"  //^^^^^^^^ c"; `"}"]) =
  Ok [((17, 18), `"a"); ((22, 23), `"b"); ((16, 24), `"c")].
Proof. vm_compute. reflexivity. Qed.
