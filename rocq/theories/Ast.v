(** Model of the abstract syntax of noodle/src/parser.rs and of the parts of [parse_term] that build
    character classes. *)
From Verif Require Export Base Words.

(** parser.rs:69-76 *)
Inductive anagram_kind := Standard | Super | Sub | TransAdd (n : nat) | TransDelete (n : nat).

(** parser.rs:48-67 *)
Inductive ast :=
| CharClass (cs : charset)
| Alternatives (alts : list ast)
| Sequence (terms : list ast)
| Substring (terms : list ast)
| Repetition (term : ast) (min : nat) (max : option nat)
| Anagram (kind : anagram_kind) (bank : list char).

(** parser.rs:41-46 *)
Record expr_options := mkExprOptions {
  explicit_word_boundaries : option bool;
  explicit_punctuation : option bool;
  opt_fuzz : option nat
}.
(** parser.rs:33-39 *)
Record expr_ast := mkExprAst { root : ast; options : expr_options }.

(** Induction over nested lists. *)
Section ast_ind'.
  Variable P : ast -> Prop.
  Hypothesis HC : forall cs, P (CharClass cs).
  Hypothesis HA : forall l, Forall P l -> P (Alternatives l).
  Hypothesis HS : forall l, Forall P l -> P (Sequence l).
  Hypothesis HU : forall l, Forall P l -> P (Substring l).
  Hypothesis HR : forall t mn mx, P t -> P (Repetition t mn mx).
  Hypothesis HN : forall k b, P (Anagram k b).
  Fixpoint ast_ind' (a : ast) : P a :=
    let fix all (l : list ast) : Forall P l :=
      match l with
      | [] => Forall_nil P
      | x :: l' => Forall_cons x (ast_ind' x) (all l')
      end in
    match a with
    | CharClass cs => HC cs
    | Alternatives l => HA l (all l)
    | Sequence l => HS l (all l)
    | Substring l => HU l (all l)
    | Repetition t mn mx => HR t mn mx (ast_ind' t)
    | Anagram k b => HN k b
    end.
End ast_ind'.

(** Items of a bracket class as delivered by the grammar (noodle_grammar.pest:14-18): single code
    points and ranges of ASCII letters. *)
Inductive class_item := ItemChar (c : N) | ItemRange (lo hi : N).

(** parser.rs:509-532, Rule::class of parse_term *)
Definition class_item_set (i : class_item) : charset :=
  match i with
  | ItemChar c => charset_of_cp c
  | ItemRange lo hi => from_range lo hi
  end.
Definition class_charset (inverted : bool) (items : list class_item) : charset :=
  let bitset := fold_left (fun b i => cs_union b (class_item_set i)) items EMPTY in
  if inverted then invert bitset else bitset.
