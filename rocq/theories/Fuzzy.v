(** Specification of fuzzy matching: noodle_help.md:86-92 and the comments of
    fill_transition_table. *)
From Verif Require Export Lang.

(** Every visible symbol of the searched text stands for itself, or, at the cost of one edit, for
    nothing, for another letter, or for a letter followed by itself. [fuzzy w u k]: the text [w] is
    read as the string [u] with [k] edits. *)
Inductive fuzzy : list char -> list char -> nat -> Prop :=
| fuzzy_nil : fuzzy [] [] 0
| fuzzy_keep c w u k : fuzzy w u k -> fuzzy (c :: w) (c :: u) k
| fuzzy_delete c w u k : fuzzy w u k -> fuzzy (c :: w) u (S k)
| fuzzy_change c l w u k : l < 26 -> fuzzy w u k -> fuzzy (c :: w) (l :: u) (S k)
| fuzzy_insert c l w u k : l < 26 -> fuzzy w u k -> fuzzy (c :: w) (l :: c :: u) (S k).

(** The symbols of a text an expression looks at. *)
Definition visible (ex : expression) (w : list char) : list char :=
  filter (fun c => negb (ignore_word_boundaries ex && (c =? WORD_END) ||
                         ignore_punctuation ex && (c =? PUNCTUATION))) w.

(** The expression accepts the text within its number of edits. *)
Definition accepts_text (ex : expression) (w : list char) : Prop :=
  exists u k, k <= fuzz ex /\ fuzzy (visible ex w) u k /\ accepts (states ex) u.

(** The number of edits an expression asks for, and the symbols that count for it: word ends and
    punctuation only if they are made explicit. *)
Definition requested_fuzz (o : expr_options) : nat := match opt_fuzz o with Some k => k | None => 0 end.
Definition significant (o : expr_options) (w : list char) : list char :=
  filter (fun c =>
    if c =? 27 then match explicit_word_boundaries o with Some true => true | _ => false end
    else if c =? 26 then match explicit_punctuation o with Some true => true | _ => false end
    else true) w.

(** Levenshtein distance, at most [k]: the usual inductive definition. *)
Inductive lev : list char -> list char -> nat -> Prop :=
| lev_nil : lev [] [] 0
| lev_keep c w u k : lev w u k -> lev (c :: w) (c :: u) k
| lev_delete c w u k : lev w u k -> lev (c :: w) u (S k)
| lev_insert c w u k : lev w u k -> lev w (c :: u) (S k)
| lev_change c d w u k : lev w u k -> lev (c :: w) (d :: u) (S k).

(** The text of a phrase. *)
Definition phrase_text (ws : list word) : list char := concat (map w_chars ws).
