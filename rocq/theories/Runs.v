(** Patterns of letters and of parts of which any run of consecutive letters may be used, written
    (abc:^): sequences of character classes and of substrings of two or more classes. *)
From Verif Require Export Flat.

(** One character class with at least one character. *)
Definition some_class (a : ast) : bool := match a with CharClass cs => negb (N.eqb cs EMPTY) | _ => false end.

Fixpoint runs (a : ast) : bool :=
  match a with
  | CharClass cs => negb (N.eqb cs EMPTY)
  | Sequence l => forallb runs l
  | Substring l => (2 <=? length l) && forallb some_class l
  | Repetition _ _ _ | Alternatives _ | Anagram _ _ => false
  end.

(** Classes, sequences and alternatives, none of which is empty; of alternatives there are at least two,
    and each ends with a class. *)
Fixpoint solid (a : ast) : bool :=
  match a with
  | CharClass cs => negb (N.eqb cs EMPTY)
  | Sequence l => match l with [] => false | _ => true end && forallb solid l
  | Alternatives l => (2 <=? length l) && forallb solid l && forallb ends_in_class l
  | Repetition _ _ _ | Substring _ | Anagram _ _ => false
  end.

(** Patterns sewn together from such patterns, patterns with alternatives ([Flat.branching]) and patterns
    with a group of two or more characters repeated without bound, as in x(cat|dog)+y, at character classes: two patterns, one ending and the other beginning with the same class, become one
    in which the class occurs once. A sequence within a sequence is as good as its parts. *)
Inductive sewn : ast -> Prop :=
| sewn_branching a : branching a = true -> sewn a
| sewn_runs a : runs a = true -> sewn a
| sewn_ring before r mn after : forallb solid before = true -> solid r = true -> 2 <= shortest r -> forallb solid after = true ->
    sewn (Sequence (before ++ Repetition r mn None :: after))
| sewn_join before c after : c <> EMPTY ->
    sewn (Sequence (before ++ [CharClass c])) -> sewn (Sequence (CharClass c :: after)) -> sewn (Sequence (before ++ CharClass c :: after))
| sewn_nested before l after : sewn (Sequence (before ++ l ++ after)) -> sewn (Sequence (before ++ Sequence l :: after)).

(** Queries all of whose expressions are such patterns. *)
Definition all_simple (es : list expr_ast) : Prop := Forall (fun e => sewn (root e) /\ small (root e)) es.
