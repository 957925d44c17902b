(** Patterns without nesting: a sequence of character classes, each on its own or repeated. Such are
    the patterns made of letters, dots, classes, numbers and underscores and of [?], [*], [+] and
    [{n,m}] after one of them; no parentheses around more than one of them, no alternatives, no
    anagrams and no fuzzy substrings. *)
From Verif Require Export Lang Fuzzy.

(** Exactly one character class. *)
Fixpoint one_class (a : ast) : bool :=
  match a with
  | CharClass _ => true
  | Sequence [t] => one_class t
  | _ => false
  end.

Fixpoint flat (a : ast) : bool :=
  match a with
  | CharClass _ => true
  | Sequence l => forallb flat l
  | Repetition t mn mx => one_class t && match mx with Some m => mn <=? m | None => true end
  | Alternatives _ | Substring _ | Anagram _ _ => false
  end.

(** The last thing in the pattern is one character class. *)
Fixpoint ends_in_class (a : ast) : bool :=
  match a with
  | CharClass _ => true
  | Sequence l => (fix go (l : list ast) : bool :=
                     match l with [] => false | [t] => ends_in_class t | _ :: l' => go l' end) l
  | _ => false
  end.
(** The last thing in the pattern is not repeated: one character class, or alternatives. *)
Fixpoint ends_unrepeated (a : ast) : bool :=
  match a with
  | CharClass _ | Alternatives _ => true
  | Sequence l => (fix go (l : list ast) : bool :=
                     match l with [] => false | [t] => ends_unrepeated t | _ :: l' => go l' end) l
  | _ => false
  end.
Fixpoint least (l : list nat) : nat := match l with [] => 0 | [x] => x | x :: l' => Nat.min x (least l') end.
(** The length of the shortest text matched. *)
Fixpoint shortest (a : ast) : nat :=
  match a with
  | CharClass _ => 1
  | Sequence l => list_sum (map shortest l)
  | Alternatives l => least (map shortest l)
  | Repetition t mn _ => mn * shortest t
  | Substring _ | Anagram _ _ => 0
  end.
(** At how many places (at least) a text can begin. *)
Fixpoint beginnings (a : ast) : nat :=
  match a with
  | CharClass cs => if N.eqb cs EMPTY then 0 else 1
  | Sequence l => (fix go (l : list ast) : nat :=
                     match l with [] => 0 | t :: l' => beginnings t + (if shortest t =? 0 then go l' else 0) end) l
  | Alternatives l => list_sum (map beginnings l)
  | Repetition t _ mx => match mx with Some 0 => 0 | _ => beginnings t end
  | Substring _ | Anagram _ _ => 0
  end.
(** Such patterns with alternatives and groups, also within each other. Each alternative ends in one
    class that is not repeated. A group is repeated a fixed number of times, or between two numbers
    of times if its last part is not repeated and it is not just one class. *)
Fixpoint branching (a : ast) : bool :=
  match a with
  | CharClass _ => true
  | Sequence l => forallb branching l
  | Repetition t mn mx =>
      match mx with Some m => mn <=? m | None => true end &&
      (one_class t ||
       (branching t &&
        match mx with
        | Some m => (mn =? m) || (ends_unrepeated t && ((2 <=? shortest t) || (2 <=? beginnings t)))
        | None => false
        end))
  | Alternatives l => (2 <=? length l) && forallb branching l && forallb ends_in_class l
  | Substring _ | Anagram _ _ => false
  end.

(** The automaton of the pattern fits into the sets of the compiler. *)
Definition small (a : ast) : Prop := width a < 16 * 1024.

(** The text read by an expression, within its number of edits, is matched by its pattern; word ends
    after the match are free. *)
Definition text_fits (e : expr_ast) (t : list char) : Prop :=
  exists u k, k <= requested_fuzz (options e) /\ fuzzy (significant (options e) t) u k /\
    then_word_ends (matches (root e)) u.
Definition phrase_fits (es : list expr_ast) (p : list word) : Prop :=
  Forall (fun e => text_fits e (phrase_text p)) es.

(** Neither edits nor explicit word ends or punctuation: the default. *)
Definition default_options (o : expr_options) : Prop :=
  requested_fuzz o = 0 /\ explicit_word_boundaries o <> Some true /\ explicit_punctuation o <> Some true.
(** The letters of a text. *)
Definition letters_of (t : list char) : list char := filter (fun c => negb (c =? 26) && negb (c =? 27)) t.
(** Queries all of whose expressions are such patterns. *)
Definition all_branching (es : list expr_ast) : Prop := Forall (fun e => branching (root e) = true /\ small (root e)) es.
