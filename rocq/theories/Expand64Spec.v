(** What C50 and C36 say about the sums of the parser. *)
From Verif Require Export ParserSpec Expand64.

(** Every run of digits in the text stands for a number that stays below 2^64 when the length of the
    text is added to it. *)
Definition numbers_room (t : text) : Prop := forall p x q, t = p ++ x ++ q -> digits x -> (decimal x + N.of_nat (length t) < 2 ^ 64)%N.
