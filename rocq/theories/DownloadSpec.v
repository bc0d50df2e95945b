(** What a user expects of the extension's downloads, read off the history of
    answers and choices alone (the labels of Download.v), without the state of
    the model. *)
From Coq Require Import String.
From Verif Require Import Base Download.
Open Scope N_scope.

(** The calls made, in order: call number [i] was made with configuration [c] *)
Definition started (h : list label) (i : nat) (c : config) : Prop :=
  exists h1 h2, h = h1 ++ LStart c :: h2
    /\ length (filter (fun l => match l with LStart _ => true | _ => false end) h1) = i.

(** The label is about call [i] *)
Definition about (i : nat) (l : label) : bool :=
  match l with
  | LStart _ | LDelete _ => false
  | LRelease j _ | LStat j _ _ | LResponse j _ | LChunk j _ | LEnd j | LStreamFails j | LRename j _
  | LChoose j _ _ | LInput j _ _ | LCheck j _ | LKill j => Nat.eqb j i
  end.
Definition history_of (i : nat) (h : list label) : list label := filter (about i) h.

(** [a] is the first of the assets whose name starts with the binary's and
    mentions the platform *)
Definition mentions (t p : text) : Prop := exists a b, t = a ++ p ++ b.
Definition suits (binary lbl : text) (a : asset) : Prop :=
  (exists rest, a_name a = binary ++ rest) /\ mentions (a_name a) lbl.
Definition first_suitable (binary lbl : text) (assets : list asset) (a : asset) : Prop :=
  exists before after, assets = before ++ a :: after
    /\ suits binary lbl a /\ Forall (fun b => ~ suits binary lbl b) before.
(** The labels by which binaries are named, per [process.platform] *)
Inductive label_of : text -> text -> Prop :=
| label_windows : label_of (`"win32") (`"win")
| label_linux : label_of (`"linux") (`"linux")
| label_mac : label_of (`"darwin") (`"darwin").

(** Call [i] was told of a release in which [a] is the one for it *)
Definition offered (h : list label) (i : nat) (a : asset) : Prop :=
  exists c lbl assets, started h i c /\ label_of (c_platform c) lbl
    /\ In (LRelease i (ReleaseIs (Some assets))) h /\ first_suitable (c_binary c) lbl assets a.

(** A whole answer was received and put in place: in the history of one call,
    an answer begins (the length it announces, if any, is a number), its pieces arrive,
    it ends, and the file is renamed *)
Definition delivered (h : list label) (a : asset) (bytes : list N) : Prop :=
  exists i before len pieces after,
    history_of i h = before ++ LResponse i (BodyFollows len) :: map (LChunk i) pieces ++ LEnd i :: LRename i true :: after
    /\ len <> Some None /\ bytes = concat pieces /\ offered h i a.

(** The random numbers drawn in a history, 5 bytes in hexadecimal *)
Definition draws (h : list label) : list text :=
  concat (map (fun l => match l with LStat _ _ x | LChoose _ _ x | LInput _ _ x => [x] | _ => [] end) h).
Definition hex_number (x : text) : Prop :=
  length x = 10%nat /\ Forall (fun c => 48 <= c <= 57 \/ 97 <= c <= 102) x.
Definition ends_in (t x : text) : Prop := exists a, t = a ++ x.
(** Names that are there before, or that are offered, by files and releases *)
Definition offered_names (h : list label) : list text :=
  concat (map (fun l => match l with LRelease _ (ReleaseIs (Some l)) => map a_name l | _ => [] end) h).
(** The random numbers are new: each is drawn once, and no other name ends in one *)
Definition fresh_draws (names : list text) (h : list label) : Prop :=
  NoDup (draws h) /\ Forall hex_number (draws h)
  /\ forall n x, In n (names ++ offered_names h) -> In x (draws h) -> ~ ends_in n x.

(** The user asks call [i] to try again: by the dialog's button, or by closing or
    confirming the box for the token *)
Definition asked (l : label) (i : nat) : Prop :=
  (exists x, l = LChoose i Retry x) \/ (exists t x, l = LInput i t x).

(** The stored token: what the user last entered; nothing if that was empty; a
    box that was closed does not count *)
Inductive token_after : option text -> list label -> option text -> Prop :=
| token_first t : token_after t [] t
| token_entered t h i x hex v : token_after t h x -> v <> [] -> token_after t (h ++ [LInput i (Some v) hex]) (Some v)
| token_cleared t h i x hex : token_after t h x -> token_after t (h ++ [LInput i (Some []) hex]) None
| token_closed t h i x hex : token_after t h x -> token_after t (h ++ [LInput i None hex]) x
| token_other t h x l : token_after t h x -> (forall i v hex, l <> LInput i v hex) -> token_after t (h ++ [l]) x.

(** The user's setting, with a leading ~/ standing for the home directory *)
Inductive expands (home : text) : text -> text -> Prop :=
| expands_home rest : expands home ([126; 47] ++ rest) (home ++ [47] ++ rest)
| expands_plain p : (forall rest, p <> [126; 47] ++ rest) -> expands home p p.

(** [p] is the whole number nearest to the percentage (halves up) *)
Definition nearest_percent (p read total : N) : Prop := 2 * total * p <= 200 * read + total < 2 * total * (p + 1).
Definition total_of (l : list N) : N := fold_right N.add 0 l.
Definition sum_of (l : list Z) : Z := fold_right Z.add 0%Z l.
