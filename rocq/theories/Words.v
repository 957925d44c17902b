(** Model of noodle/src/words.rs. Texts are lists of Unicode code points ([N]). *)
From Coq Require Import String Ascii.
From Verif Require Export Base.
Export List ListNotations.
Local Open Scope list_scope.

Definition text := list N.

(** Literals for examples. *)
Fixpoint str (s : string) : text :=
  match s with
  | EmptyString => []
  | String a s' => N_of_ascii a :: str s'
  end.

(** words.rs:13-20: [Char] is 0..27 *)
Definition char := nat.
Definition PUNCTUATION : char := 26.
Definition WORD_END : char := 27.
Definition CHAR_MAX : nat := 28.

Definition in_range (lo hi c : N) : bool := (N.leb lo c) && (N.leb c hi).

(** words.rs:42-51 impl From<char> for Char *)
Definition char_of (c : N) : char :=
  if in_range 65 90 c then N.to_nat (c - 65)
  else if in_range 97 122 c then N.to_nat (c - 97)
  else if (N.eqb c 32) || (N.eqb c 95) then WORD_END
  else PUNCTUATION.

(** words.rs:22-29 into_char *)
Definition into_char (c : char) : outcome N :=
  if c <? CHAR_MAX then
    if c =? PUNCTUATION then Ok 39%N
    else if c =? WORD_END then Ok 95%N
    else Ok (97 + N.of_nat c)%N
  else Panic.

(** words.rs:66-77 CharBitset constants *)
Definition charset := N.
Definition EMPTY : charset := 0%N.
Definition LETTERS : charset := (N.shiftl 1 26 - 1)%N.
Definition LETTERS_BUT_I : charset := N.land (N.shiftl 1 26 - 1) (N.lxor (N.shiftl 1 8) (N.ones 32)).
Definition ALL : charset := (N.shiftl 1 28 - 1)%N.

(** words.rs:108-125 From<Char>, From<char> *)
Definition charset_of (c : char) : charset := N.shiftl 1 (N.of_nat c).
Definition charset_of_cp (c : N) : charset := charset_of (char_of c).

(** words.rs:79-85 from_range: all code points low..=high (empty if low > high). Rust skips the
    surrogate range D800..DFFF, which maps to PUNCTUATION like its neighbours, so the union is the
    same. *)
Fixpoint range_fold (n : nat) (c : N) (x : charset) : charset :=
  match n with
  | 0 => x
  | S n' => range_fold n' (c + 1) (N.lor x (charset_of_cp c))
  end.
Definition from_range (low high : N) : charset :=
  range_fold (N.to_nat (high + 1 - low)) low 0%N.

(** words.rs:87-105 *)
Definition invert (x : charset) : charset := N.lxor x LETTERS.
Definition cs_union (x y : charset) : charset := N.lor x y.
Definition cs_difference (x y : charset) : charset := N.land x (N.lxor y (N.ones 32)).
Definition is_intersecting (x y : charset) : bool := negb (N.eqb (N.land x y) 0).
Definition cs_contains (x : charset) (c : char) : bool := is_intersecting x (charset_of c).

(** words.rs:153-162 *)
Record word := mkWord { w_tranche : nat; w_chars : list char; w_text : text; w_score : N }.

(** words.rs:164-193 Word::new. The Unicode tables (crate unicode-normalization and
    char::to_uppercase / to_lowercase) are parameters. *)
Record unicode := mkUnicode {
  u_nfkd : text -> text;
  u_combining : N -> bool;
  u_upper : N -> text;
  u_lower : N -> text
}.
(** words.rs:173-180: ae and oe ligatures *)
Definition expand_ligature (c : N) : text :=
  if (N.eqb c 230) || (N.eqb c 198) then [97; 101]%N
  else if (N.eqb c 339) || (N.eqb c 338) then [111; 101]%N
  else [c].
Definition word_chars (u : unicode) (t : text) : list char :=
  map char_of
    (flat_map (u_lower u)
      (flat_map (u_upper u)
        (flat_map expand_ligature
          (filter (fun c => negb (u_combining u c)) (u_nfkd u t)))))
  ++ [WORD_END].
Definition word_new (u : unicode) (t : text) (tranche : nat) (score : N) : word :=
  {| w_tranche := tranche; w_chars := word_chars u t; w_text := t; w_score := score |}.

(** Derived [Ord] (words.rs:153): lexicographic on tranche, chars, text, score. [Box<str>] compares
    UTF-8 bytes, which orders texts like their code points. *)
Fixpoint compare_list {A} (cmp : A -> A -> comparison) (x y : list A) : comparison :=
  match x, y with
  | [], [] => Eq
  | [], _ => Lt
  | _, [] => Gt
  | a :: x', b :: y' => match cmp a b with Eq => compare_list cmp x' y' | c => c end
  end.
Definition lex (a b : comparison) : comparison := match a with Eq => b | c => c end.
Definition word_compare (a b : word) : comparison :=
  lex (Nat.compare (w_tranche a) (w_tranche b))
 (lex (compare_list Nat.compare (w_chars a) (w_chars b))
 (lex (compare_list N.compare (w_text a) (w_text b))
      (N.compare (w_score a) (w_score b)))).
Definition word_leb (a b : word) : bool :=
  match word_compare a b with Gt => false | _ => true end.
Definition word_eqb (a b : word) : bool :=
  match word_compare a b with Eq => true | _ => false end.

(** slice::sort. The order is total and antisymmetric, so the sorted list is unique and any
    algorithm gives it; insertion sort is used here. *)
Fixpoint insert_sorted (a : word) (l : list word) : list word :=
  match l with
  | [] => [a]
  | b :: l' => if word_leb a b then a :: l else b :: insert_sorted a l'
  end.
Definition sort_words (l : list word) : list word := fold_right insert_sorted [] l.

(** str::len: bytes of the UTF-8 encoding *)
Definition utf8_len1 (c : N) : N :=
  if N.ltb c 128 then 1 else if N.ltb c 2048 then 2 else if N.ltb c 65536 then 3 else 4.
Definition utf8_len (t : text) : N := fold_right (fun c n => utf8_len1 c + n)%N 0%N t.

Definition is_digit (c : N) : bool := in_range 48 57 c.
Definition is_lower (c : N) : bool := in_range 97 122 c.

(** str::parse::<u32>: optional '+', at least one digit, value below 2^32 *)
Fixpoint parse_digits (t : text) (acc : N) : option N :=
  match t with
  | [] => Some acc
  | c :: t' =>
      if is_digit c then
        let acc' := (acc * 10 + (c - 48))%N in
        if N.ltb acc' (2 ^ 32) then parse_digits t' acc' else None
      else None
  end.
Definition parse_u32 (t : text) : option N :=
  match t with
  | [] => None
  | c :: t' =>
      if N.eqb c 43 then match t' with [] => None | _ => parse_digits t' 0 end
      else parse_digits t 0
  end.

(** str::split_once *)
Fixpoint split_once (sep : N) (t : text) : option (text * text) :=
  match t with
  | [] => None
  | c :: t' =>
      if N.eqb c sep then Some ([], t')
      else match split_once sep t' with
           | Some (a, b) => Some (c :: a, b)
           | None => None
           end
  end.

(** words.rs:236-243: the word and score of a line. [line.len() as u32 * 200] wraps modulo 2^32 in
    a release build (it panics in a debug build for lines of more than 21 MB). *)
Definition parse_line (line : text) : text * N :=
  let plain := (line, (utf8_len line * 200) mod 2 ^ 32)%N in
  match split_once 9 line with
  | Some (count_col, word_col) =>
      match parse_u32 count_col with
      | Some count => (word_col, count)
      | None => plain
      end
  | None => plain
  end.

Fixpoint text_eqb (a b : text) : bool :=
  match a, b with
  | [], [] => true
  | x :: a', y :: b' => N.eqb x y && text_eqb a' b'
  | _, _ => false
  end.

(** words.rs:224-229 state of the filter_map closure. Simplification: [tranche] is u8 in the code;
    it would overflow only after more than 10^48 words, the model does not wrap. *)
Record load_state := mkLoad { ld_size : N; ld_count : N; ld_tranche : nat }.
Definition INITIAL_TRANCHE_SIZE : N := 10000.
Definition load_init : load_state := {| ld_size := INITIAL_TRANCHE_SIZE; ld_count := 0; ld_tranche := 0 |}.

(** words.rs:234-271 the filter_map closure on one line *)
Definition load_line (u : unicode) (s : load_state) (line : text) : load_state * option word :=
  let '(wtext, score) := parse_line line in
  let t := ld_tranche s + (if forallb is_lower wtext then 0 else 1) in
  let w := word_new u wtext t score in
  if (length (w_chars w) <=? 2) && negb (text_eqb (w_text w) (str "I"))
     && negb (text_eqb (w_text w) (str "a"))
  then (s, None)
  else if existsb is_digit (w_text w) then (s, None)
  else
    let count := (ld_count s + 1)%N in
    let s' := if N.ltb (ld_size s) count
              then {| ld_size := (ld_size s + ld_size s / 2)%N; ld_count := 0;
                      ld_tranche := S (ld_tranche s) |}
              else {| ld_size := ld_size s; ld_count := count; ld_tranche := ld_tranche s |} in
    (s', Some w).

Fixpoint load_lines (u : unicode) (s : load_state) (lines : list text) : list word :=
  match lines with
  | [] => []
  | line :: rest =>
      let '(s', w) := load_line u s line in
      match w with
      | Some w => w :: load_lines u s' rest
      | None => load_lines u s' rest
      end
  end.

(** words.rs:207-281 load_wordlist, from the decoded lines of the file (opening, zstd and UTF-8
    decoding are not modelled; undecodable lines are dropped before this point) *)
Definition load_wordlist (u : unicode) (lines : list text) : list word :=
  sort_words (load_lines u load_init lines).
