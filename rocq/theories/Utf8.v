(** UTF-8 as used by String::into_bytes and String::from_utf8 (Rust core
    library).  The VFS stores document contents as bytes
    (move_language_server/src/main_loop.rs:262,273 [into_bytes];
    global_state.rs:122 and main_loop.rs:271 [String::from_utf8]). *)
From Verif Require Import Base.
Local Open Scope N_scope.

Notation bytes := (list N) (only parsing).

(** char::encode_utf8 *)
Definition enc_char (c : char) : bytes :=
  if c <? 0x80 then [c]
  else if c <? 0x800 then [0xC0 + c / 64; 0x80 + c mod 64]
  else if c <? 0x10000 then [0xE0 + c / 4096; 0x80 + (c / 64) mod 64; 0x80 + c mod 64]
  else [0xF0 + c / 262144; 0x80 + (c / 4096) mod 64; 0x80 + (c / 64) mod 64; 0x80 + c mod 64].

(** String::into_bytes *)
Definition encode (t : text) : bytes := flat_map enc_char t.

Definition is_cont (b : N) : bool := (0x80 <=? b) && (b <? 0xC0).

(** core::str::from_utf8: rejects stray continuation bytes, truncated and
    overlong sequences, surrogates and values above U+10FFFF. *)
Fixpoint decode (l : bytes) : option text :=
  match l with
  | [] => Some []
  | b0 :: r0 =>
      if b0 <? 0x80 then option_map (cons b0) (decode r0)
      else if (0xC0 <=? b0) && (b0 <? 0xE0) then
        match r0 with
        | b1 :: r1 =>
            let c := (b0 - 0xC0) * 64 + (b1 - 0x80) in
            if is_cont b1 && (0x80 <=? c) then option_map (cons c) (decode r1) else None
        | _ => None
        end
      else if (0xE0 <=? b0) && (b0 <? 0xF0) then
        match r0 with
        | b1 :: b2 :: r2 =>
            let c := (b0 - 0xE0) * 4096 + (b1 - 0x80) * 64 + (b2 - 0x80) in
            if is_cont b1 && is_cont b2 && (0x800 <=? c) && is_scalar c
            then option_map (cons c) (decode r2) else None
        | _ => None
        end
      else if (0xF0 <=? b0) && (b0 <? 0xF8) then
        match r0 with
        | b1 :: b2 :: b3 :: r3 =>
            let c := (b0 - 0xF0) * 262144 + (b1 - 0x80) * 4096 + (b2 - 0x80) * 64 + (b3 - 0x80) in
            if is_cont b1 && is_cont b2 && is_cont b3 && (0x10000 <=? c) && is_scalar c
            then option_map (cons c) (decode r3) else None
        | _ => None
        end
      else None
  end.
