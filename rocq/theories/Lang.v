(** Specification: the language an expression denotes, and when an automaton accepts a string. It
    follows noodle_help.md:8-32 and 61-92, not the code. *)
From Verif Require Export Base Words Ast Nfa.

Definition language := list char -> Prop.

Definition cat (L1 L2 : language) : language :=
  fun w => exists u v, w = u ++ v /\ L1 u /\ L2 v.
Definition empty_string : language := fun w => w = [].
Definition cats (Ls : list language) : language := fold_right cat empty_string Ls.
Fixpoint power (L : language) (n : nat) : language :=
  match n with 0 => empty_string | S n' => cat L (power L n') end.

Definition occ (c : char) (w : list char) : nat := count_occ Nat.eq_dec w c.

(** noodle_help.md:21-25 and 76-80 *)
Definition anagram_language (k : anagram_kind) (bank : list char) : language :=
  fun w =>
    match k with
    | Standard => forall c, occ c w = occ c bank
    | Super => (forall c, occ c bank <= occ c w) /\ Forall (fun c => c < 26) w
    | Sub => forall c, occ c w <= occ c bank
    | TransAdd n => (forall c, occ c bank <= occ c w) /\ Forall (fun c => c < 26) w /\
                    length w = length bank + n
    | TransDelete n => (forall c, occ c w <= occ c bank) /\ length w = length bank - n
    end.

(** noodle_help.md:8-32. A substring is the concatenation of a run of consecutive terms, possibly
    empty. *)
Fixpoint matches (a : ast) : language :=
  match a with
  | CharClass cs => fun w => exists c, w = [c] /\ cs_contains cs c = true
  | Alternatives l => fun w => exists L, In L (map matches l) /\ L w
  | Sequence l => cats (map matches l)
  | Substring l => fun w => exists pre run post, map matches l = pre ++ run ++ post /\ cats run w
  | Repetition t mn mx =>
      fun w => exists n, mn <= n /\ (forall m, mx = Some m -> n <= m) /\ power (matches t) n w
  | Anagram k bank => anagram_language k bank
  end.

(** Labelled edges of an automaton given by a list of states whose first state has number [k]. *)
Definition edge (k : nat) (st : list state) (s : nat) (l : option char) (t : nat) : Prop :=
  exists x, k <= s /\ nth_error st (s - k) = Some x /\
    match l with
    | None => mem (eps x) t = true
    | Some c => cs_contains (chars x) c = true /\ next x = t
    end.

(** Paths: [path E s w t], the string [w] leads from [s] to [t]. *)
Inductive path (E : nat -> option char -> nat -> Prop) : nat -> list char -> nat -> Prop :=
| path_nil s : path E s [] s
| path_eps s t w u : E s None t -> path E t w u -> path E s w u
| path_chr s c t w u : E s (Some c) t -> path E t w u -> path E s (c :: w) u.

(** An automaton accepts [w] if [w] leads from the first state to the last. *)
Definition accepts (st : list state) (w : list char) : Prop :=
  path (edge 0 st) 0 w (length st - 1).

(** The last state of a compiled expression absorbs word ends (expression.rs:63). *)
Definition then_word_ends (L : language) : language :=
  fun w => exists u n, w = u ++ repeat WORD_END n /\ L u.

(** The class of patterns whose construction is correct. [width]: the number of states built. *)
Fixpoint width (a : ast) : nat :=
  match a with
  | CharClass _ => 1
  | Alternatives l => 1 + list_sum (map width l)
  | Sequence l => list_sum (map width l)
  | Substring l => 1 + list_sum (map width l)
  | Repetition t mn mx =>
      match mn, mx with
      | 0, Some 0 => 0
      | 1, Some 1 => width t
      | _, _ => 2 + Nat.max 1 (Nat.max mn (match mx with Some m => m | None => mn end)) * width t
      end
  | Anagram _ _ => 0
  end.

(** Only the last state built for [a] leads out of it. *)
Fixpoint last_only (a : ast) : bool :=
  match a with
  | CharClass _ => true
  | Alternatives l => match l with [t] => last_only t | _ => false end
  | Sequence l =>
      (fix go (l : list ast) (acc : bool) : bool :=
         match l with
         | [] => acc
         | t :: l' => go l' (if width t =? 0 then acc else last_only t)
         end) l true
  | Substring l => match l with [t] => last_only t | _ => false end
  | Repetition t mn mx =>
      match mn, mx with
      | 1, Some 1 => last_only t
      | _, _ => true
      end
  | Anagram _ _ => true
  end.

(** The last state built for [a] is certainly a character state. *)
Fixpoint char_ended (a : ast) : bool :=
  match a with
  | CharClass cs => negb (N.eqb cs EMPTY)
  | Alternatives l => (fix go (l : list ast) : bool :=
                         match l with [] => false | [t] => char_ended t | _ :: l' => go l' end) l
  | Sequence l =>
      (fix go (l : list ast) (acc : bool) : bool :=
         match l with
         | [] => acc
         | t :: l' => go l' (if width t =? 0 then acc else char_ended t)
         end) l false
  | Substring l => (fix go (l : list ast) : bool :=
                         match l with [] => false | [t] => char_ended t | _ :: l' => go l' end) l
  | Repetition t mn mx =>
      match mn, mx with
      | 1, Some 1 => char_ended t
      | _, _ => false
      end
  | Anagram _ _ => false
  end.

(** All but the last element satisfy [p]. *)
Fixpoint init_all {A} (p : A -> bool) (l : list A) : bool :=
  match l with
  | [] => true
  | [_] => true
  | x :: l' => p x && init_all p l'
  end.

(** Well-formed patterns: no anagram blocks, ordered bounds, no empty branches, and all branches of
    alternatives and substrings except the last leave through their last state. A substring has two
    or more terms one of which (not the last) ends with a character. *)
Fixpoint well_formed (a : ast) : bool :=
  match a with
  | CharClass _ => true
  | Alternatives l => forallb well_formed l && forallb (fun t => 0 <? width t) l
                      && init_all last_only l
  | Sequence l => forallb well_formed l
  | Substring l => forallb well_formed l && forallb (fun t => 0 <? width t) l
                   && init_all last_only l && negb (init_all (fun t => negb (char_ended t)) l)
  | Repetition t mn mx =>
      well_formed t && match mx with Some m => mn <=? m | None => true end
  | Anagram _ _ => false
  end.
