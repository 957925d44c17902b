(** What a query text means, line by line; used in the statements of PropParser.v. *)
From Coq Require Import String.
From Verif Require Export Parser Lang ExpandSpec.
Local Open Scope list_scope.

(** lines are separated by newlines and semicolons *)
Definition sep (c : N) : Prop := c = 10%N \/ c = 59%N.
Definition one_line (t : text) : Prop := Forall (fun c => ~ sep c) t.

(** the number of lines of a text *)
Definition line_count (t : text) : nat := S (length (filter (fun c => N.eqb c 10 || N.eqb c 59) t)).
(** [x] is [l] without the white space at both ends *)
Definition trimmed (l x : text) : Prop := exists a b, l = a ++ x ++ b /\
  Forall (fun c => is_white c = true) (a ++ b) /\
  (forall c y, x = c :: y \/ x = y ++ [c] -> is_white c = false).

(** the later setting wins *)
Definition or_else {A} (later earlier : option A) : option A := match later with Some _ => later | None => earlier end.
Definition override (o later : query_options) : query_options :=
  mkQueryOptions (or_else (max_words later) (max_words o)) (or_else (dictionary later) (dictionary o))
    (or_else (results_limit later) (results_limit o)) (or_else (quiet later) (quiet o)) (or_else (wordlist later) (wordlist o)).
(** the value last given to a macro *)
Fixpoint lookup (k : text) (m : list (text * text)) : option text :=
  match m with [] => None | (k', v) :: m' => if text_eqb k k' then Some v else lookup k m' end.
(** a table in which [k] has the value [v]: an old name keeps its place, a new one is put last *)
Definition bind_macro (m : list (text * text)) (k v : text) (m' : list (text * text)) : Prop :=
  (forall k', lookup k' m' = if text_eqb k' k then Some v else lookup k' m) /\
  map fst m' = map fst m ++ (match lookup k m with None => [k] | Some _ => [] end).
(** the text with the given lines *)
Fixpoint unlines (ls : list text) : text :=
  match ls with [] => [] | l :: ls' => match ls' with [] => l | _ => l ++ 10%N :: unlines ls' end end.
Definition spaces (t : text) : Prop := Forall (fun c => c = 32%N) t.
Definition digits (t : text) : Prop := Forall (fun c => is_digit c = true) t.
(** the decimal value *)
Definition decimal (d : text) : N := fold_left (fun v c => (v * 10 + (c - 48))%N) d 0%N.
(** every run of digits in the text is a 64-bit number *)
Definition numbers_fit (t : text) : Prop := forall p x q, t = p ++ x ++ q -> digits x -> (decimal x < 2 ^ 64)%N.
(** what a dictionary name can consist of *)
Definition name_char (c : N) : Prop := in_range 97 122 c = true \/ in_range 65 90 c = true \/ c = 46%N \/ c = 39%N \/ c = 95%N.
(** [r] is [t] with every occurrence of [from], searched from left to right, replaced by [to] *)
Inductive rewritten (from to : text) : text -> text -> Prop :=
| rewritten_none t : (forall p q, t <> p ++ from ++ q) -> rewritten from to t t
| rewritten_first p q r : (forall p' q', p ++ from ++ q = p' ++ from ++ q' -> length p <= length p') ->
    rewritten from to q r -> rewritten from to (p ++ from ++ q) (p ++ to ++ r).
(** the same for every macro of a table in turn *)
Inductive expanded : list (text * text) -> text -> text -> Prop :=
| expanded_nil t : expanded [] t t
| expanded_cons k v m t t1 t2 : rewritten k v t t1 -> expanded m t1 t2 -> expanded ((k, v) :: m) t t2.
(** [l] is [l'] with some of its members left out *)
Inductive sublist {A} : list A -> list A -> Prop :=
| sublist_nil : sublist [] []
| sublist_keep a l l' : sublist l l' -> sublist (a :: l) (a :: l')
| sublist_drop a l l' : sublist l l' -> sublist l (a :: l').
(** the languages in order, with any symbols before, between and after them *)
Fixpoint with_gaps (Ls : list language) (w : list char) : Prop :=
  match Ls with
  | [] => Forall (fun c => c < CHAR_MAX) w
  | L :: Ls' => exists gap x rest, w = gap ++ x ++ rest /\ Forall (fun c => c < CHAR_MAX) gap /\ L x /\ with_gaps Ls' rest
  end.
