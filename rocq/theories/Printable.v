(** Specification for C41: which expressions survive being printed and parsed again, as trees and as
    written patterns. Not part of the program. *)
From Verif Require Export Syntax.
Local Open Scope list_scope.

(** ** Trees *)
Definition fits64 (n : nat) : bool := N.ltb (N.of_nat n) (2 ^ 64).
(** A sequence of one item is printed without parentheses: it ends in the mark of a repetition. *)
Fixpoint ends_repeated (a : ast) : bool :=
  match a with Repetition _ _ _ => true | Sequence [a] => ends_repeated a | _ => false end.
Fixpoint printable (a : ast) : bool :=
  match a with
  | CharClass cs => negb (N.eqb cs 0) && N.ltb cs (2 ^ 28)
  | Alternatives l => (1 <? length l) && forallb printable l
  | Sequence l => (0 <? length l) && forallb printable l
  | Substring l => (1 <? length l) && forallb (fun a => printable a && negb (ends_repeated a)) l
  | Repetition t mn mx => printable t && negb (ends_repeated t) && fits64 mn && match mx with Some m => fits64 m | None => true end
  | Anagram k bank =>
      (0 <? length bank) && forallb (fun c => c <? 26) bank &&
      match k with TransAdd n => fits64 n | TransDelete n => (n <=? length bank) && fits64 n | _ => true end
  end.
(** Options say so when the symbols are mentioned, and say nothing else than that they are on. *)
Definition options_noted (e : expr_ast) : Prop :=
  (mentions WORD_END (root e) -> explicit_word_boundaries (options e) = Some true) /\
  (mentions PUNCTUATION (root e) -> explicit_punctuation (options e) = Some true) /\
  explicit_word_boundaries (options e) <> Some false /\ explicit_punctuation (options e) <> Some false /\
  (forall n, opt_fuzz (options e) = Some n -> fits64 n = true).

(** ** Written patterns *)
(** Printed without the parentheses it was written with, and ending in the mark of a repetition. *)
Fixpoint repeats (p : pat) : bool :=
  match p with
  | Repeated _ _ _ => true
  | Group [[p]] => repeats p
  | Operator OSubset [_] => true
  | _ => false
  end.
(** Printed such that it can be read again: no class is empty, nothing that is printed as a
    repetition is repeated or made a part of a substring, and a substring has two parts or more. *)
Fixpoint reprints (p : pat) : Prop :=
  match p with
  | Class neg items => exists w, means (Class neg items) w
  | Group bs => (fix go (bs : list (list pat)) : Prop :=
                   match bs with
                   | [] => True
                   | b :: bs' => (fix all (ps : list pat) : Prop := match ps with [] => True | p :: ps' => reprints p /\ all ps' end) b /\ go bs'
                   end) bs
  | Operator o ts =>
      match o with OSubstring => 2 <= length ts | _ => True end /\
      (fix all (ps : list pat) : Prop :=
         match ps with [] => True | p :: ps' => (reprints p /\ match o with OSuperset => True | _ => repeats p = false end) /\ all ps' end) ts
  | Repeated p _ _ => reprints p /\ repeats p = false
  | _ => True
  end.
