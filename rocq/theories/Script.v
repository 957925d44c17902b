(** Specification: whole query texts, with comments, macros, pragmas and a wordlist of their own. Not
    part of the program. *)
From Coq Require Import String Permutation Sorted.
From Verif Require Import Syntax.
Local Open Scope list_scope.

(** ** Single lines *)
(** What one line says, once macros are expanded. *)
Inductive statement := Says (l : line) | Quiet | Defines (name value : text) | OwnWords.
(** Names of macros: a letter, then letters, digits and underscores. *)
Definition macro_name_text (k : text) : Prop :=
  exists c t, k = c :: t /\ ascii_letter c /\ Forall (fun c => ascii_letter c \/ is_digit c = true \/ c = 95%N) t.
(** Values: printable symbols, no space at the ends, no beginning of a comment and no separator. *)
Definition macro_value_text (v : text) : Prop :=
  Forall (fun c => (32 <= c <= 126)%N /\ ~ sep c) v /\
  (forall t, v <> 32%N :: t) /\ (forall t, v <> t ++ [32%N]) /\
  (forall p k q, v = p ++ k :: k :: q -> k <> 47%N /\ k <> 45%N).
Inductive says : statement -> text -> Prop :=
| says_line l t : writes_line l t -> says (Says l) t
| says_quiet sp p sp' : spaces sp -> spells "#quiet" p -> spaces sp' -> says Quiet (sp ++ p ++ sp')
| says_words sp p sp' : spaces sp -> spells "#wordlist" p -> spaces sp' -> says OwnWords (sp ++ p ++ sp')
(** A name of one letter has to be followed by the "=" immediately (see C66). *)
| says_define sp k sp1 sp2 v sp3 : spaces sp -> macro_name_text k -> spaces sp1 -> length k <> 1 \/ sp1 = [] -> spaces sp2 -> macro_value_text v -> spaces sp3 ->
    says (Defines k v) (sp ++ k ++ sp1 ++ str "=" ++ sp2 ++ v ++ sp3)
(** A comment: two slashes or two dashes and anything after them. *)
| says_comment s t k c : says s t -> k = 47%N \/ k = 45%N -> c <> [] -> (forall t' a, t = t' ++ [a] -> a <> 47%N /\ a <> 45%N) ->
    says s (t ++ k :: k :: c).

(** ** Several lines *)
(** The words on the lines [xs], the first of which is line number [i]; the lines may be indented or
    blank. *)
Inductive word_lines (u : unicode) : nat -> list text -> list word -> Prop :=
| wls_end i : word_lines u i [] []
| wls_blank i x xs ws : trimmed x [] -> word_lines u (S i) xs ws -> word_lines u i (x :: xs) ws
| wls_word i x y xs ws : trimmed x y -> y <> [] -> word_lines u (S i) xs ws ->
    word_lines u i (x :: xs) (word_new u y 1 (N.of_nat i mod 2 ^ 32) :: ws).
(** The lines [xs], of which the first is line number [i], read in turn with the macros [m]: the
    lines they come to, and the words they list. *)
Inductive reads (u : unicode) : list (text * text) -> nat -> list text -> list line -> option (list word) -> Prop :=
| rd_end m i : reads u m i [] [] None
| rd_line m i x x' l xs ls own : expanded m x x' -> says (Says l) x' -> reads u m (S i) xs ls own -> reads u m i (x :: xs) (l :: ls) own
| rd_quiet m i x x' xs ls own : expanded m x x' -> says Quiet x' -> reads u m (S i) xs ls own -> reads u m i (x :: xs) ls own
| rd_define m i x x' k v m' xs ls own : expanded m x x' -> says (Defines k v) x' -> bind_macro m k v m' -> reads u m' (S i) xs ls own -> reads u m i (x :: xs) ls own
| rd_words m i x x' xs ws : expanded m x x' -> says OwnWords x' -> word_lines u (S i) xs ws -> reads u m i (x :: xs) [] (Some ws).
(** The lines of a text. *)
Inductive lines_of : text -> list text -> Prop :=
| lines_one t : one_line t -> lines_of t [t]
| lines_more t s t' xs : one_line t -> sep s -> lines_of t' xs -> lines_of (t ++ s :: t') (t :: xs).
(** The text [t] comes to the lines [ls] and, if [own] is [Some ws], to the words [ws], which are sorted. *)
Definition writes_script (u : unicode) (ls : list line) (own : option (list word)) (t : text) : Prop :=
  exists xs listed, lines_of t xs /\ reads u [] 0 xs ls listed /\
  match own, listed with
  | None, None => True
  | Some ws, Some listed => Permutation ws listed /\ StronglySorted (fun a b => word_compare a b <> Gt) ws
  | _, _ => False
  end.
