(** Specification of what expanding and option detection should do. *)
From Verif Require Export Expand Lang.
From Coq Require Import Permutation.

(** The strings a block should match (noodle_help.md:21-25, 76-80): rearrangements of the bank, with
    letters added or left out. *)
Definition anagram_of (k : anagram_kind) (bank w : list char) : Prop :=
  match k with
  | Standard => Permutation bank w
  | Super => exists extra, Permutation (bank ++ extra) w /\ Forall (fun c => c < 26) w
  | Sub => exists unused, Permutation bank (w ++ unused)
  | TransAdd n => exists extra, Permutation (bank ++ extra) w /\ Forall (fun c => c < 26) w /\ length extra = n
  | TransDelete n => exists unused, Permutation bank (w ++ unused) /\ length unused = Nat.min n (length bank)
  end.

(** The language of an expression whose blocks mean that. *)
Fixpoint denotes (a : ast) : language :=
  match a with
  | CharClass cs => fun w => exists c, w = [c] /\ cs_contains cs c = true
  | Alternatives l => fun w => exists L, In L (map denotes l) /\ L w
  | Sequence l => cats (map denotes l)
  | Substring l => fun w => exists pre run post, map denotes l = pre ++ run ++ post /\ cats run w
  | Repetition t mn mx =>
      fun w => exists n, mn <= n /\ (forall m, mx = Some m -> n <= m) /\ power (denotes t) n w
  | Anagram k bank => anagram_of k bank
  end.

(** All symbols of the blocks are symbols of the alphabet, as they always are after parsing. *)
Fixpoint banks_ok (a : ast) : bool :=
  match a with
  | CharClass _ => true
  | Alternatives l | Sequence l | Substring l => forallb banks_ok l
  | Repetition t _ _ => banks_ok t
  | Anagram _ bank => forallb (fun c => c <? CHAR_MAX) bank
  end.

(** Is there a block at all? Inside a repetition? *)
Fixpoint has_block (a : ast) : bool :=
  match a with
  | CharClass _ => false
  | Alternatives l | Sequence l | Substring l => existsb has_block l
  | Repetition t _ _ => has_block t
  | Anagram _ _ => true
  end.
Fixpoint has_repeated_block (a : ast) : bool :=
  match a with
  | CharClass _ | Anagram _ _ => false
  | Alternatives l | Sequence l | Substring l => existsb has_repeated_block l
  | Repetition t _ _ => has_block t
  end.

(** The expression mentions the symbol. *)
Inductive mentions (c : char) : ast -> Prop :=
| mentions_class cs : cs_contains cs c = true -> mentions c (CharClass cs)
| mentions_alt l a : In a l -> mentions c a -> mentions c (Alternatives l)
| mentions_seq l a : In a l -> mentions c a -> mentions c (Sequence l)
| mentions_sub l a : In a l -> mentions c a -> mentions c (Substring l)
| mentions_rep t mn mx : mentions c t -> mentions c (Repetition t mn mx)
| mentions_bank k bank : In c bank -> mentions c (Anagram k bank).
