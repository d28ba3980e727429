(** parser/src/source.rs: the immutable source text.

    A Rust [&str] is modelled by its UTF-8 bytes, a [list N].  [String]s in the
    examples are ASCII literals. *)
From Verif Require Export Base.

(** source.rs:1-5 — struct Source { source: &str, source_len: u32 }. *)
Record source := Source { src_bytes : list N; src_len : N }.

(** source.rs:19-22 — Source::new: [source.len() as u32] truncates. *)
Definition source_new (s : list N) : source :=
  Source s (as_u32 (N.of_nat (length s))).

(** source.rs:24-31 — get_char: bounds check against source_len, then
    indexing (a panic if it were out of range). *)
Definition get_char (s : source) (position : N) : res (option N) :=
  if position <? src_len s then
    match src_bytes s !! N.to_nat position with
    | Some c => Ok (Some c)
    | None => Panic PIndex
    end
  else Ok None.

(** Slicing [&bytes[a..b]]: panics unless a <= b <= len. *)
Definition slice_bytes (l : list N) (a b : N) : res (list N) :=
  if (a <=? b) && (b <=? N.of_nat (length l))
  then Ok (firstn (N.to_nat (b - a)) (skipn (N.to_nat a) l))
  else Panic PIndex.

(** source.rs:33-41 — get_multiple_chars: u32 addition (overflow panics in a
    debug build), strict bound. *)
Definition get_multiple_chars (s : source) (position number_of_chars : N) : res (option (list N)) :=
  if u32_modulus <=? position + number_of_chars then Panic POverflow
  else if position + number_of_chars <? src_len s then
    rmap Some (slice_bytes (src_bytes s) position (position + number_of_chars))
  else Ok None.

(** core::str::is_char_boundary on UTF-8 bytes: index 0, the length, or a byte
    that is not a continuation byte 0x80..0xBF. *)
Definition is_char_boundary (l : list N) (i : N) : bool :=
  if i =? 0 then true
  else match l !! N.to_nat i with
       | None => i =? N.of_nat (length l)
       | Some b => negb ((128 <=? b) && (b <? 192))
       end.

(** [&s[a..b]] on a &str: panics unless a <= b <= len and both are char
    boundaries. *)
Definition slice_str (l : list N) (a b : N) : res (list N) :=
  if (a <=? b) && (b <=? N.of_nat (length l))
     && is_char_boundary l a && is_char_boundary l b
  then Ok (firstn (N.to_nat (b - a)) (skipn (N.to_nat a) l))
  else Panic PStrSlice.

(** source.rs:42-48 — get_string. *)
Definition get_string (s : source) (start_position end_position : N) : res (option (list N)) :=
  if (src_len s <? start_position) || (src_len s <? end_position) then Ok None
  else rmap Some (slice_str (src_bytes s) start_position end_position).

(** source.rs:50-52 — get_len. *)
Definition get_len (s : source) : N := src_len s.
