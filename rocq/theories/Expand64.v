(** Model of the one sum in noodle/src/parser.rs that can leave 64 bits: [total_length + a] in the
    length constraint of a block <word+a> (parser.rs:351-355). Expand.v adds without bound; here the
    sum is made as the program makes it. [ovf] says whether overflow checks are on (Cargo.toml:8-20 turns
    them on for [dev] and [test]; [release] leaves them off, and the sum wraps). *)
From Verif Require Export Parser.

(** [usize + usize] *)
Definition sum64 (ovf : bool) (x y : nat) : outcome nat :=
  let s := (N.of_nat x + N.of_nat y)%N in
  if N.ltb s (2 ^ 64) then Ok (x + y) else if ovf then Panic else Ok (N.to_nat (s - 2 ^ 64)).
(** parser.rs:329-356; the other kinds make no sum, or a saturating one *)
Definition length_constraint64 (ovf : bool) (k : anagram_kind) (chars : charset) (total : nat) : outcome ast :=
  match k with
  | TransAdd a => do n <- sum64 ovf total a; Ok (exactly (CharClass LETTERS) n)
  | _ => Ok (length_constraint k chars total)
  end.
(** parser.rs:270-358 *)
Definition ast_for_anagram64 (ovf : bool) (k : anagram_kind) (h : list (char * nat)) (i : nat) : outcome ast :=
  match nth_error h i with
  | Some (ch, count) => Ok (letter_constraint k (bank_set h) ch count)
  | None => length_constraint64 ovf k (bank_set h) (total_count h)
  end.
(** parser.rs:360-383: all replacements are made first, and then used column by column *)
Definition expand_expression64 (ovf : bool) (e : expr_ast) : outcome (list expr_ast) :=
  let sets := map (fun p => (fst p, histogram (snd p))) (visited (root e)) in
  let m := max_unique (map snd sets) in
  do rows <- mapM (fun p => mapM (ast_for_anagram64 ovf (fst p) (snd p)) (seq 0 (m + 1))) sets;
  mapM (fun i =>
      do column <- mapM (fun row => index row i) rows;
      do (a, _) <- replaced column (root e);
      Ok (mkExprAst a (options e)))
    (seq 0 (m + 1)).
(** parser.rs:230-231, 386 *)
Definition expand_expressions64 (ovf : bool) (es : list expr_ast) : outcome (list expr_ast) :=
  do ess <- mapM (expand_expression64 ovf) es; Ok (concat ess).
(** parser.rs:104-205 QueryAst::new_from_str, as [parse_query] in Parser.v but for the sum *)
Definition parse_query64 (ovf : bool) (u : unicode) (input : text) : outcome (attempt query_ast) :=
  do r <- parse_query_lines u (mkQueryAst [] [] no_query_options) 0 (split_lines input);
  match r with
  | ParseError n => Ok (ParseError n)
  | Parsed q =>
      do es <- expand_expressions64 ovf (q_expressions q);
      Ok (Parsed (mkQueryAst (macros q) es (set_wordlist (q_options q) (option_map sort_words (wordlist (q_options q))))))
  end.
