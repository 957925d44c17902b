(** Specification of the results of a query: all sequences of words, and which of them count. *)
From Verif Require Export Fuzzy.

(** All sequences of [k] elements of a list, each choice of positions once, in lexicographic order of
    the positions. *)
Fixpoint tuples {X} (l : list X) (k : nat) : list (list X) :=
  match k with
  | 0 => [[]]
  | S k' => flat_map (fun w => map (cons w) (tuples l k')) l
  end.
(** The tranche of the rarest word of a phrase. *)
Definition maxt (p : list word) : nat := fold_right Nat.max 0 (map w_tranche p).
(** Common words come first. *)
Definition sorted_words (A : list word) : Prop :=
  forall i j x y, i <= j -> nth_error A i = Some x -> nth_error A j = Some y -> w_tranche x <= w_tranche y.
(** Every expression accepts the words written one after the other. *)
Definition acc_all (exs : list expression) (p : list word) : Prop := Forall (fun ex => accepts_text ex (phrase_text p)) exs.
