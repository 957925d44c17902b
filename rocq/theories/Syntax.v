(** Specification: the pattern language of noodle_help.md:8-32 and 61-92, independently of the
    parser: what a pattern is ([pat]), how it can be written ([writes]) and which strings it stands
    for ([means]). Not part of the program. *)
From Coq Require Import String Permutation.
From Verif Require Export ParserSpec Fuzzy.
Local Open Scope list_scope.

(** ** Patterns *)
(** In a class: a code point, or all code points between two. *)
Inductive item := Single (c : N) | Range (lo hi : N).
Inductive op := OSubstring | OSubset | OSuperset.
(** Bounds of a repetition: at least, at most. *)
Inductive pat :=
| Symbol (s : char)                                (* a letter, ' or _ *)
| Dot                                              (* . *)
| Length (n : nat)                                 (* a number *)
| Class (negated : bool) (items : list item)       (* [...] *)
| Block (k : anagram_kind) (bank : list char)      (* <...> *)
| Group (branches : list (list pat))               (* (...|...) *)
| Operator (o : op) (terms : list pat)             (* (...:^) *)
| Repeated (p : pat) (least : nat) (most : option nat).

(** ** What they mean *)
Definition item_covers (i : item) (s : char) : Prop :=
  match i with Single c => s = char_of c | Range lo hi => exists c, (lo <= c <= hi)%N /\ s = char_of c end.
Definition covers (items : list item) (s : char) : Prop := exists i, In i items /\ item_covers i s.
Definition letter (s : char) : Prop := s < 26.

Fixpoint means (p : pat) : language :=
  match p with
  | Symbol s => fun w => w = [s]
  | Dot => fun w => exists s, w = [s] /\ letter s
  | Length n => fun w => exists u, w = u ++ [WORD_END] /\ length u = n /\ Forall letter u
  | Class false items => fun w => exists s, w = [s] /\ covers items s
  | Class true items => fun w => exists s, w = [s] /\ letter s /\ ~ covers items s
  | Block k bank => anagram_of k bank
  | Group branches => fun w => exists L, In L (map (fun b => cats (map means b)) branches) /\ L w
  | Operator OSubstring ts => fun w => exists before run after, map means ts = before ++ run ++ after /\ cats run w
  | Operator OSubset ts => fun w => exists chosen, sublist chosen (map means ts) /\ cats chosen w
  | Operator OSuperset ts => with_gaps (map means ts)
  | Repeated p least most => fun w => exists n, least <= n /\ (forall m, most = Some m -> n <= m) /\ power (means p) n w
  end.

(** The symbol is mentioned: this makes word ends and punctuation significant. *)
Inductive speaks (s : char) : pat -> Prop :=
| speaks_symbol : speaks s (Symbol s)
| speaks_length n : s = WORD_END -> speaks s (Length n)
| speaks_class items : covers items s -> speaks s (Class false items)
| speaks_superset ts : speaks s (Operator OSuperset ts)
| speaks_group bs b p : In b bs -> In p b -> speaks s p -> speaks s (Group bs)
| speaks_operator o ts p : In p ts -> speaks s p -> speaks s (Operator o ts)
| speaks_repeated p l m : speaks s p -> speaks s (Repeated p l m).

(** ** How they are written *)
Definition ascii_letter (c : N) : Prop := (97 <= c <= 122 \/ 65 <= c <= 90)%N.
Definition numeral (d : text) (n : nat) : Prop := digits d /\ d <> [] /\ (decimal d < 2 ^ 64)%N /\ n = N.to_nat (decimal d).
Inductive writes_item : item -> text -> Prop :=
| wi_single c : ascii_letter c \/ c = 39%N \/ c = 95%N -> writes_item (Single c) [c]
| wi_range a b : ascii_letter a -> ascii_letter b -> writes_item (Range a b) (a :: 45%N :: [b]).
(** A negated class lists letters only (see C05 for the other symbols). *)
Definition letters_only (items : list item) : Prop := Forall (fun i => match i with Single c => ascii_letter c | Range a b => forall c, (a <= c <= b)%N -> ascii_letter c end) items.
Inductive writes_bounds : nat -> option nat -> text -> Prop :=
| wr_optional : writes_bounds 0 (Some 1) (str "?")
| wr_any : writes_bounds 0 None (str "*")
| wr_some : writes_bounds 1 None (str "+")
| wr_upto d n : numeral d n -> writes_bounds 0 (Some n) (str "{," ++ d ++ str "}")
| wr_times d n : numeral d n -> writes_bounds n (Some n) (str "{" ++ d ++ str "}")
| wr_least d n : numeral d n -> writes_bounds n None (str "{" ++ d ++ str ",}")
| wr_between d n d' n' : numeral d n -> numeral d' n' -> writes_bounds n (Some n') (str "{" ++ d ++ str "," ++ d' ++ str "}").
Inductive writes_kind : anagram_kind -> nat -> text -> Prop :=
| wk_plain len : writes_kind Standard len (str ">")
| wk_super len : writes_kind Super len (str "+>")
| wk_sub len : writes_kind Sub len (str "->")
| wk_add len d n : numeral d n -> writes_kind (TransAdd n) len (str "+" ++ d ++ str ">")
| wk_delete len d n : numeral d n -> writes_kind (TransDelete (Nat.min n len)) len (str "-" ++ d ++ str ">").
Definition op_text (o : op) : text := match o with OSubstring => str ":^)" | OSubset => str ":-)" | OSuperset => str ":+)" end.
(** A repetition cannot be repeated, nor be an operand of an operator, without parentheses. *)
Definition unrepeated (p : pat) : Prop := match p with Repeated _ _ _ => False | _ => True end.
(** Two numbers have to be kept apart. *)
Definition apart (p : pat) (sp t : text) : Prop :=
  match p with Length _ => sp <> [] \/ (forall c t', t = c :: t' -> is_digit c = false) | _ => True end.

Inductive writes : pat -> text -> Prop :=
| w_symbol c : ascii_letter c \/ c = 39%N \/ c = 95%N -> writes (Symbol (char_of c)) [c]
| w_dot : writes Dot (str ".")
| w_length d n : numeral d n -> writes (Length n) d
| w_class items ts : Forall2 writes_item items ts -> items <> [] -> writes (Class false items) (str "[" ++ concat ts ++ str "]")
| w_negated items ts : Forall2 writes_item items ts -> items <> [] -> letters_only items -> writes (Class true items) (str "[^" ++ concat ts ++ str "]")
| w_block k b t : Forall ascii_letter b -> b <> [] -> writes_kind k (length b) t -> writes (Block k (map char_of b)) (str "<" ++ b ++ t)
| w_group bs sp t : spaces sp -> writes_branches bs t -> writes (Group bs) (str "(" ++ sp ++ t ++ str ")")
| w_operator o ps sp t : spaces sp -> writes_parts ps t -> Forall unrepeated ps -> writes (Operator o ps) (str "(" ++ sp ++ t ++ op_text o)
| w_repeated p t sp l m t' : writes p t -> unrepeated p -> spaces sp -> writes_bounds l m t' -> writes (Repeated p l m) (t ++ sp ++ t')
with writes_parts : list pat -> text -> Prop :=
| wp_one p t sp : writes p t -> spaces sp -> writes_parts [p] (t ++ sp)
| wp_more p t sp ps t' : writes p t -> spaces sp -> apart p sp t' -> writes_parts ps t' -> writes_parts (p :: ps) (t ++ sp ++ t')
with writes_branches : list (list pat) -> text -> Prop :=
| wb_one ps t : writes_parts ps t -> writes_branches [ps] t
| wb_more ps t sp bs t' : writes_parts ps t -> spaces sp -> writes_branches bs t' -> writes_branches (ps :: bs) (t ++ str "|" ++ sp ++ t').

(** ** Expressions: alternatives and options *)
Inductive request := WordEnds | Punctuation | Fuzz (n : nat).
Inductive writes_requests : list request -> text -> Prop :=
| wo_nil : writes_requests [] []
| wo_ends sp rs t : spaces sp -> writes_requests rs t -> writes_requests (WordEnds :: rs) (str "!_" ++ sp ++ t)
| wo_punct sp rs t : spaces sp -> writes_requests rs t -> writes_requests (Punctuation :: rs) (str "!'" ++ sp ++ t)
| wo_fuzz d n sp rs t : numeral d n -> spaces sp -> writes_requests rs t -> writes_requests (Fuzz n :: rs) (str "!" ++ d ++ sp ++ t).
(** [bs]: the alternatives; the text of an expression. *)
Inductive writes_expression : list (list pat) -> list request -> text -> Prop :=
| we_intro sp bs t rs t' : spaces sp -> writes_branches bs t -> writes_requests rs t' -> writes_expression bs rs (sp ++ t ++ t').
(** The last number of edits asked for. *)
Fixpoint last_fuzz (rs : list request) : option nat :=
  match rs with
  | [] => None
  | r :: rs' => match last_fuzz rs', r with Some n, _ => Some n | None, Fuzz n => Some n | None, _ => None end
  end.
(** The options of an expression, as written and as implied by the symbols mentioned. *)
Definition options_asked (bs : list (list pat)) (rs : list request) (o : expr_options) : Prop :=
  (explicit_word_boundaries o = Some true <-> In WordEnds rs \/ speaks WORD_END (Group bs)) /\
  (explicit_punctuation o = Some true <-> In Punctuation rs \/ speaks PUNCTUATION (Group bs)) /\
  opt_fuzz o = last_fuzz rs.

(** ** Queries: several lines *)
Inductive line := Pattern (bs : list (list pat)) (rs : list request) | Blank | MaxWords (n : nat) | MaxResults (n : nat) | Dictionary (name : text).
(** In upper or lower case. *)
Definition spells (s : string) (t : text) : Prop := map ascii_lower t = str s.
Inductive writes_line : line -> text -> Prop :=
| wl_pattern bs rs t : writes_expression bs rs t -> writes_line (Pattern bs rs) t
| wl_blank sp : spaces sp -> writes_line Blank sp
| wl_words sp0 p sp d n sp' : spaces sp0 -> spells "#words" p -> spaces sp -> numeral d n -> spaces sp' -> writes_line (MaxWords n) (sp0 ++ p ++ sp ++ d ++ sp')
| wl_limit sp0 p sp d n sp' : spaces sp0 -> spells "#limit" p -> spaces sp -> numeral d n -> spaces sp' -> writes_line (MaxResults n) (sp0 ++ p ++ sp ++ d ++ sp')
| wl_dict sp0 p sp name sp' : spaces sp0 -> spells "#dict" p -> spaces sp -> Forall name_char name -> name <> [] -> spaces sp' ->
    writes_line (Dictionary name) (sp0 ++ p ++ sp ++ name ++ sp').
Inductive writes_query : list line -> text -> Prop :=
| wq_one l t : writes_line l t -> writes_query [l] t
| wq_more l t s ls t' : writes_line l t -> sep s -> writes_query ls t' -> writes_query (l :: ls) (t ++ s :: t').
(** The patterns of a query, and the value last given for a setting. *)
Fixpoint patterns (ls : list line) : list (list (list pat) * list request) :=
  match ls with [] => [] | Pattern bs rs :: ls' => (bs, rs) :: patterns ls' | _ :: ls' => patterns ls' end.
Fixpoint latest {A} (get : line -> option A) (ls : list line) : option A :=
  match ls with [] => None | l :: ls' => match latest get ls' with Some a => Some a | None => get l end end.
Definition words_line (l : line) : option nat := match l with MaxWords n => Some n | _ => None end.
Definition limit_line (l : line) : option nat := match l with MaxResults n => Some n | _ => None end.
Definition dict_line (l : line) : option text := match l with Dictionary d => Some d | _ => None end.

(** ** Kinds of patterns *)
(** Without anagram blocks. *)
Fixpoint blockless (p : pat) : bool :=
  match p with
  | Block _ _ => false
  | Group bs => forallb (forallb blockless) bs
  | Operator _ ts => forallb blockless ts
  | Repeated p _ _ => blockless p
  | _ => true
  end.
(** One symbol. *)
Fixpoint one_symbol (p : pat) : bool :=
  match p with
  | Symbol _ | Dot | Class _ _ => true
  | Group [[p]] => one_symbol p
  | _ => false
  end.
(** It ends in a symbol that is not repeated (after a number: in a word end). *)
Fixpoint ends_in_symbol (p : pat) : bool :=
  match p with
  | Symbol _ | Dot | Class _ _ | Length _ => true
  | Group [ps] => (fix go (ps : list pat) : bool :=
                     match ps with [] => false | [p] => ends_in_symbol p | _ :: ps' => go ps' end) ps
  | _ => false
  end.
(** Its last part is not repeated: a symbol, or alternatives. *)
Fixpoint ends_once (p : pat) : bool :=
  match p with
  | Symbol _ | Dot | Class _ _ | Length _ => true
  | Group [] => false
  | Group [ps] => (fix go (ps : list pat) : bool :=
                     match ps with [] => false | [p] => ends_once p | _ :: ps' => go ps' end) ps
  | Group (_ :: _ :: _) => true
  | _ => false
  end.
Fixpoint smallest (l : list nat) : nat := match l with [] => 0 | [x] => x | x :: l' => Nat.min x (smallest l') end.
(** No text it stands for is shorter than this. *)
Fixpoint shortest_text (p : pat) : nat :=
  match p with
  | Symbol _ | Dot | Class _ _ => 1
  | Length n => n + 1
  | Group bs => smallest (map (fun b => list_sum (map shortest_text b)) bs)
  | Repeated p l _ => l * shortest_text p
  | Block _ _ | Operator _ _ => 0
  end.
(** In at least so many places a text it stands for can begin. *)
Fixpoint openings (p : pat) : nat :=
  match p with
  | Symbol _ | Dot | Length _ => 1
  | Class false items => if existsb (fun i => match i with Single _ => true | Range lo hi => N.leb lo hi end) items then 1 else 0
  | Group bs => list_sum (map (fun b =>
      (fix go (ps : list pat) : nat :=
         match ps with [] => 0 | p :: ps' => openings p + match p with Repeated _ 0 _ => go ps' | _ => 0 end end) b) bs)
  | Repeated p _ m => match m with Some 0 => 0 | _ => openings p end
  | Class true _ | Block _ _ | Operator _ _ => 0
  end.
(** Any repetition of one symbol. A longer group repeated a fixed number of times, or between two
    numbers of times if its last part is not repeated and it either takes two symbols or can begin in
    two places. Each alternative ends in a symbol. *)
Fixpoint branched (p : pat) : bool :=
  match p with
  | Symbol _ | Dot | Class _ _ | Length _ => true
  | Group [] => false
  | Group [ps] => forallb branched ps
  | Group bs => forallb (forallb branched) bs && forallb (fun b => ends_in_symbol (Group [b])) bs
  | Operator OSubset ts => forallb one_symbol ts
  | Operator OSuperset ts => forallb branched ts
  | Repeated p l m =>
      match m with Some m => l <=? m | None => true end &&
      (one_symbol p ||
       (branched p &&
        match m with
        | Some m => (l =? m) || (ends_once p && ((2 <=? shortest_text p) || (2 <=? openings p)))
        | None => false
        end))
  | _ => false
  end.
(** How many states it takes, at most. *)
Fixpoint size (p : pat) : nat :=
  match p with
  | Symbol _ | Dot | Class _ _ => 1
  | Length n => n + 3
  | Block _ _ => 0
  | Group bs => 1 + list_sum (map (fun b => list_sum (map size b)) bs)
  | Operator _ ts => list_sum (map (fun p => size p + 3) ts) + 3
  | Repeated p l m => 2 + Nat.max 1 (Nat.max l (match m with Some m => m | None => 0 end)) * size p
  end.
(** One symbol, and at least one that fits. *)
Definition a_symbol (p : pat) : bool := match p with Symbol _ | Dot | Class _ _ => 1 <=? openings p | _ => false end.
(** Symbols and runs of two or more symbols, one after the other. *)
Fixpoint strung (p : pat) : bool :=
  match p with
  | Symbol _ | Dot | Class _ _ => a_symbol p
  | Group [ps] => forallb strung ps
  | Operator OSubstring ts => (2 <=? length ts) && forallb a_symbol ts
  | _ => false
  end.
(** Symbols, and groups of alternatives each of which ends in a symbol, one after the other: nothing in it
    is repeated or empty. *)
Fixpoint firm (p : pat) : bool :=
  match p with
  | Symbol _ | Dot | Class _ _ => a_symbol p
  | Group [] => false
  | Group [ps] => (1 <=? length ps) && forallb firm ps
  | Group bs => forallb (forallb firm) bs && forallb (fun b => ends_in_symbol (Group [b])) bs
  | _ => false
  end.
(** Among such parts one of two or more symbols that is repeated without bound, as in x(cat|dog)+y. *)
Fixpoint ringed (ps : list pat) : bool :=
  match ps with
  | [] => false
  | p :: ps' =>
      match p with
      | Repeated r _ None => firm r && (2 <=? shortest_text r) && forallb firm ps'
      | _ => firm p && ringed ps'
      end
  end.
Definition of_one_kind (ps : list pat) : bool := branched (Group [ps]) || strung (Group [ps]) || ringed ps.
(** Parts of one of these kinds, sewn together at symbols: between any two symbols that stand on their own,
    and before the first and after the last, all is of one kind. [open]: the last such symbol and what
    follows it. *)
Fixpoint stitched (open ps : list pat) : bool :=
  match ps with
  | [] => of_one_kind open
  | p :: ps' =>
      if a_symbol p then of_one_kind (open ++ [p]) && stitched [p] ps'
      else stitched (open ++ [p]) ps'
  end.
Definition plain_pattern (bs : list (list pat)) : bool :=
  match bs with [ps] => stitched [] ps | _ => branched (Group bs) end && (size (Group bs) <? 16 * 1024).

(** ** Answers *)
(** The text fits the pattern: what it has of significant symbols is, within the edits asked for, in
    the language of the pattern, possibly followed by word ends. *)
Definition fits (p : list (list pat) * list request) (t : list char) : Prop :=
  exists o, options_asked (fst p) (snd p) o /\
  exists u k, k <= requested_fuzz o /\ fuzzy (significant o t) u k /\ then_word_ends (means (Group (fst p))) u.
(** The expressions [es] together are a faithful account of the pattern: they have its options and
    their common language includes what it means; without anagram blocks, it is that exactly. *)
Definition stands_for (p : list (list pat) * list request) (es : list expr_ast) : Prop :=
  es <> [] /\ Forall (fun e => options_asked (fst p) (snd p) (options e)) es /\
  (forall w, means (Group (fst p)) w -> Forall (fun e => matches (root e) w) es) /\
  (blockless (Group (fst p)) = true -> forall w, Forall (fun e => matches (root e) w) es <-> means (Group (fst p)) w).
