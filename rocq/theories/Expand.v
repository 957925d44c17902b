(** Model of the rewriting of expressions in noodle/src/parser.rs: [detect_options] (parser.rs:670-699)
    and [QueryAst::expand_expressions] (parser.rs:207-387). *)
From Verif Require Export Ast.

(** ** Options *)
(** parser.rs:672-699. The options are threaded through the nodes. *)
Definition set_boundaries (o : expr_options) : expr_options :=
  mkExprOptions (Some true) (explicit_punctuation o) (opt_fuzz o).
Definition set_punctuation (o : expr_options) : expr_options :=
  mkExprOptions (explicit_word_boundaries o) (Some true) (opt_fuzz o).
Definition note_symbols (has : char -> bool) (o : expr_options) : expr_options :=
  let o := if has WORD_END then set_boundaries o else o in
  if has PUNCTUATION then set_punctuation o else o.
Fixpoint detect_options (a : ast) (o : expr_options) : expr_options :=
  match a with
  | CharClass cs => note_symbols (cs_contains cs) o
  | Alternatives l | Sequence l | Substring l =>
      (fix each (l : list ast) (o : expr_options) : expr_options :=
         match l with [] => o | x :: l' => each l' (detect_options x o) end) l o
  | Repetition t _ _ => detect_options t o
  | Anagram _ bank => note_symbols (fun c => existsb (Nat.eqb c) bank) o
  end.

(** ** Anagrams *)
(** parser.rs:211-239: the anagram blocks [visit] comes across, in order; it does not look inside
    repetitions *)
Fixpoint visited (a : ast) : list (anagram_kind * list char) :=
  match a with
  | CharClass _ => []
  | Alternatives l | Sequence l | Substring l => flat_map visited l
  | Repetition _ _ _ => []
  | Anagram k bank => [(k, bank)]
  end.

(** parser.rs:241-260: how often each symbol occurs, in order of the symbols. Symbols are below 28. *)
Definition histogram (bank : list char) : list (char * nat) :=
  filter (fun p => 0 <? snd p) (map (fun c => (c, count_occ Nat.eq_dec bank c)) (seq 0 CHAR_MAX)).

(** parser.rs:278-279 [histogram.remove(nth)]: only the removed entry is used *)
Definition total_count (h : list (char * nat)) : nat := fold_right plus 0 (map snd h).
Definition bank_set (h : list (char * nat)) : charset :=
  fold_left (fun s p => cs_union s (charset_of (fst p))) h EMPTY.

(** parser.rs:283-327: [count] copies of the symbol, with filling around them *)
Definition many (t : ast) : ast := Repetition t 0 None.
Definition maybe (t : ast) : ast := Repetition t 0 (Some 1).
Definition exactly (t : ast) (n : nat) : ast := Repetition t n (Some n).
Definition spaced (fill x : ast) (count : nat) : ast :=
  Sequence (flat_map (fun _ => [fill; x]) (seq 0 count) ++ [fill]).
Definition letter_constraint (k : anagram_kind) (chars : charset) (ch : char) (count : nat) : ast :=
  let char_ast := CharClass (charset_of ch) in
  let char_ast := match k with
                  | Standard | Super | TransAdd _ => char_ast
                  | Sub | TransDelete _ => maybe char_ast
                  end in
  let fill := match k with
              | Standard | Sub | TransDelete _ => many (CharClass (cs_difference chars (charset_of ch)))
              | Super | TransAdd _ => many (CharClass LETTERS)
              end in
  spaced fill char_ast count.
(** parser.rs:329-356. Simplified: [total + a] (parser.rs:353-354) is added without bound; Expand64.v has the
    64-bit sum, and PropSums.v says when they agree and what happens otherwise. *)
Definition length_constraint (k : anagram_kind) (chars : charset) (total : nat) : ast :=
  match k with
  | Standard => exactly (CharClass chars) total
  | Sub => Repetition (CharClass chars) 0 (Some total)
  | TransDelete d => exactly (CharClass chars) (total - d)
  | Super => Repetition (CharClass LETTERS) total None
  | TransAdd a => exactly (CharClass LETTERS) (total + a)
  end.
(** parser.rs:270-358 *)
Definition ast_for_anagram (k : anagram_kind) (h : list (char * nat)) (i : nat) : ast :=
  match nth_error h i with
  | Some (ch, count) => letter_constraint k (bank_set h) ch count
  | None => length_constraint k (bank_set h) (total_count h)
  end.

(** parser.rs:375-383: the blocks are replaced in the order of the visit by the [i]th entries of
    [replacements] *)
Fixpoint replaced (rs : list ast) (a : ast) : outcome (ast * list ast) :=
  let each := fix each (l : list ast) (rs : list ast) : outcome (list ast * list ast) :=
    match l with
    | [] => Ok ([], rs)
    | x :: l' => do (x', rs1) <- replaced rs x; do (l'', rs2) <- each l' rs1; Ok (x' :: l'', rs2)
    end in
  match a with
  | CharClass cs => Ok (a, rs)
  | Alternatives l => do (l', rs') <- each l rs; Ok (Alternatives l', rs')
  | Sequence l => do (l', rs') <- each l rs; Ok (Sequence l', rs')
  | Substring l => do (l', rs') <- each l rs; Ok (Substring l', rs')
  | Repetition _ _ _ => Ok (a, rs)
  | Anagram _ _ => match rs with r :: rs' => Ok (r, rs') | [] => Panic end
  end.

(** parser.rs:360-383 *)
Definition max_unique (hs : list (list (char * nat))) : nat := fold_right Nat.max 0 (map (@length _) hs).
Definition expand_expression (e : expr_ast) : outcome (list expr_ast) :=
  let sets := map (fun p => (fst p, histogram (snd p))) (visited (root e)) in
  mapM (fun i =>
      do (a, _) <- replaced (map (fun p => ast_for_anagram (fst p) (snd p) i) sets) (root e);
      Ok (mkExprAst a (options e)))
    (seq 0 (max_unique (map snd sets) + 1)).
(** parser.rs:230-231, 386 *)
Definition expand_expressions (es : list expr_ast) : outcome (list expr_ast) :=
  do ess <- mapM expand_expression es; Ok (concat ess).
