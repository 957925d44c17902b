(** Model of noodle/src/parser.rs: from text to [QueryAst], and printing. *)
From Coq Require Import String.
From Verif Require Export Grammar Ast Expand.
Local Open Scope list_scope.

(** ** Numbers *)
(** str::parse::<usize> (64 bits) on a text of digits *)
Fixpoint parse_usize_from (t : text) (acc : N) : option N :=
  match t with
  | [] => Some acc
  | c :: t' =>
      if is_digit c then
        let acc' := (acc * 10 + (c - 48))%N in
        if N.ltb acc' (2 ^ 64) then parse_usize_from t' acc' else None
      else None
  end.
Definition parse_usize (t : text) : option nat :=
  match t with [] => None | _ => option_map N.to_nat (parse_usize_from t 0) end.
(** parser.rs:474-486 *)
Definition node_rule (n : node) : rule := match n with Node r _ _ => r end.
Definition node_text (n : node) : text := match n with Node _ t _ => t end.
Definition node_inner (n : node) : list node := match n with Node _ _ l => l end.
Definition is_rule (r : rule) (n : node) : bool := if rule_eq_dec (node_rule n) r then true else false.
Definition parse_numbers (l : list node) : list nat :=
  flat_map (fun n => if is_rule number n then match parse_usize (node_text n) with Some v => [v] | None => [] end else []) l.

(** ** Terms *)
(** parser.rs:488-498 *)
Definition parse_anagram (l : list node) : outcome (list char * option nat) :=
  match l with
  | [] => Panic
  | b :: l' => if is_rule anagram_body b then Ok (map char_of (node_text b), nth_error (parse_numbers l') 0) else Panic
  end.
(** parser.rs:517-527 *)
Definition class_item_of (n : node) : outcome (list class_item) :=
  match node_rule n with
  | r_invert => Ok []
  | letter_range => do a <- index (node_text n) 0; do b <- index (node_text n) 2; Ok [ItemRange a b]
  | character => do a <- index (node_text n) 0; Ok [ItemChar a]
  | _ => Panic
  end.
Definition any_many : ast := Repetition (CharClass ALL) 0 None.
(** parser.rs:500-644. [class]: an [invert] node is only ever the first one (parser.rs:512-515), so
    testing for one anywhere is the same. *)
Fixpoint parse_term (n : node) : outcome (option ast) :=
  let terms := fix terms (l : list node) : outcome (list ast) :=
    match l with
    | [] => Ok []
    | x :: l' => do a <- parse_term x; do rest <- terms l'; Ok (match a with Some a => a :: rest | None => rest end)
    end in
  let repeated l (range : list nat -> outcome (nat * option nat)) :=
    match l with
    | [] => Panic
    | x :: l' =>
        do a <- parse_term x;
        match a with
        | None => Panic
        | Some a => do (mn, mx) <- range (parse_numbers l'); Ok (Some (Repetition a mn mx))
        end
    end in
  let block l (k : anagram_kind) :=
    do (bank, num) <- parse_anagram l;
    match num with None => Ok (Some (Anagram k bank)) | Some _ => Panic end in
  match n with
  | Node r t inner =>
      match r with
      | character => do c <- index t 0; Ok (Some (CharClass (charset_of_cp c)))
      | dot => Ok (Some (CharClass LETTERS))
      | class =>
          do items <- mapM class_item_of inner;
          Ok (Some (CharClass (class_charset (existsb (is_rule r_invert) inner) (concat items))))
      | r_subset => do l <- terms inner; Ok (Some (Sequence (map (fun c => Repetition c 0 (Some 1)) l)))
      | r_superset => do l <- terms inner; Ok (Some (Sequence (flat_map (fun c => [any_many; c]) l ++ [any_many])))
      | substring => do l <- terms inner; Ok (Some (Substring l))
      | group | sequence => do l <- terms inner; Ok (Some (Sequence l))
      | number =>
          match parse_usize t with
          | Some v => Ok (Some (Sequence [Repetition (CharClass LETTERS) v (Some v); CharClass (charset_of WORD_END)]))
          | None => Panic
          end
      | repeat_optional => repeated inner (fun _ => Ok (0, Some 1))
      | repeat_any => repeated inner (fun _ => Ok (0, None))
      | repeat_oneormore => repeated inner (fun _ => Ok (1, None))
      | repeat_exact => repeated inner (fun ns => do v <- index ns 0; Ok (v, Some v))
      | repeat_atmost => repeated inner (fun ns => do v <- index ns 0; Ok (0, Some v))
      | repeat_atleast => repeated inner (fun ns => do v <- index ns 0; Ok (v, None))
      | repeat_range => repeated inner (fun ns => do v <- index ns 0; do v' <- index ns 1; Ok (v, Some v'))
      | anagram => block inner Standard
      | subanagram => block inner Sub
      | superanagram => block inner Super
      | transadd =>
          do (bank, num) <- parse_anagram inner;
          match num with Some v => Ok (Some (Anagram (TransAdd v) bank)) | None => Panic end
      | transdelete =>
          do (bank, num) <- parse_anagram inner;
          match num with Some v => Ok (Some (Anagram (TransDelete (Nat.min v (length bank))) bank)) | None => Panic end
      | alternatives => do l <- terms inner; Ok (Some (Alternatives l))
      | _ => Ok None
      end
  end.

(** ** Expressions *)
(** parser.rs:646-668 *)
Definition no_options : expr_options := mkExprOptions None None None.
Definition parse_option (o : expr_options) (n : node) : outcome expr_options :=
  match node_rule n with
  | option_word_boundaries => Ok (mkExprOptions (Some true) (explicit_punctuation o) (opt_fuzz o))
  | option_punctuation => Ok (mkExprOptions (explicit_word_boundaries o) (Some true) (opt_fuzz o))
  | option_fuzz => do v <- index (parse_numbers (node_inner n)) 0; Ok (mkExprOptions (explicit_word_boundaries o) (explicit_punctuation o) (Some v))
  | EOI => Ok o
  | _ => Panic
  end.
Definition parse_options (l : list node) : outcome expr_options := foldM parse_option l no_options.
(** parser.rs:701-716 *)
Definition parse_expression (n : node) : outcome expr_ast :=
  if is_rule r_expression n then
    match node_inner n with
    | [] => Panic
    | sub :: rest =>
        if is_rule sequence sub || is_rule alternatives sub then
          do a <- parse_term sub;
          match a with
          | None => Panic
          | Some a => do o <- parse_options rest; Ok (mkExprAst a (detect_options a o))
          end
        else Panic
    end
  else Panic.

(** Result of a Rust function returning [Result<_, PestError>]; of the error only the line is kept. *)
Inductive attempt (A : Type) := Parsed (a : A) | ParseError (line : nat).
Arguments Parsed {A} a.
Arguments ParseError {A} line.
(** parser.rs:78-86 ExpressionAst::new_from_str; a single line *)
Definition parse_expr_text (t : text) : outcome (attempt expr_ast) :=
  match parse_rule r_expression t with
  | PFuel => OutOfFuel
  | PFail => Ok (ParseError 1)
  | PMatch _ [] => Panic
  | PMatch _ (n :: _) => do e <- parse_expression n; Ok (Parsed e)
  end.

(** ** Queries *)
(** parser.rs:24-31 *)
Record query_options := mkQueryOptions {
  max_words : option nat;
  dictionary : option text;
  results_limit : option nat;
  quiet : option bool;
  wordlist : option (list word)
}.
(** parser.rs:17-22 *)
Record query_ast := mkQueryAst { macros : list (text * text); q_expressions : list expr_ast; q_options : query_options }.

(** str::split(&['\n', ';']) *)
Fixpoint split_lines (t : text) : list text :=
  match t with
  | [] => [[]]
  | c :: t' =>
      if N.eqb c 10 || N.eqb c 59 then [] :: split_lines t'
      else match split_lines t' with l :: ls => (c :: l) :: ls | [] => [[c]] end
  end.
(** str::replace with a non-empty pattern: leftmost, not overlapping; [n] code points of an
    occurrence are still to be dropped *)
Fixpoint replace_from (from to : text) (n : nat) (t : text) : text :=
  match t with
  | [] => []
  | c :: t' =>
      match n with
      | S n' => replace_from from to n' t'
      | 0 => match strip from t with
             | Some _ => to ++ replace_from from to (length from - 1) t'
             | None => c :: replace_from from to 0 t'
             end
      end
  end.
Definition str_replace (from to t : text) : text := replace_from from to 0 t.
(** char::is_whitespace *)
Definition is_white (c : N) : bool :=
  in_range 9 13 c || N.eqb c 32 || N.eqb c 133 || N.eqb c 160 || N.eqb c 5760 || in_range 8192 8202 c ||
  N.eqb c 8232 || N.eqb c 8233 || N.eqb c 8239 || N.eqb c 8287 || N.eqb c 12288.
(** str::trim *)
Fixpoint trim_start (t : text) : text :=
  match t with c :: t' => if is_white c then trim_start t' else t | [] => [] end.
Definition trim (t : text) : text := rev (trim_start (rev (trim_start t))).
(** IndexMap::insert: an existing key keeps its place *)
Fixpoint map_insert (k v : text) (m : list (text * text)) : list (text * text) :=
  match m with
  | [] => [(k, v)]
  | (k', v') :: m' => if text_eqb k k' then (k', v) :: m' else (k', v') :: map_insert k v m'
  end.
(** parser.rs:137-140 *)
Definition substitute (m : list (text * text)) (line : text) : text :=
  fold_left (fun l p => str_replace (fst p) (snd p) l) m line.

Definition set_max_words (o : query_options) v := mkQueryOptions v (dictionary o) (results_limit o) (quiet o) (wordlist o).
Definition set_dictionary (o : query_options) v := mkQueryOptions (max_words o) v (results_limit o) (quiet o) (wordlist o).
Definition set_limit (o : query_options) v := mkQueryOptions (max_words o) (dictionary o) v (quiet o) (wordlist o).
Definition set_quiet (o : query_options) v := mkQueryOptions (max_words o) (dictionary o) (results_limit o) v (wordlist o).
Definition set_wordlist (o : query_options) v := mkQueryOptions (max_words o) (dictionary o) (results_limit o) (quiet o) v.
Definition no_query_options : query_options := mkQueryOptions None None None None None.

(** parser.rs:148-189: one parsed line. [println!] is dropped. *)
Definition add_line (q : query_ast) (n : node) : outcome query_ast :=
  let opts := q_options q in
  match node_rule n with
  | r_expression => do e <- parse_expression n; Ok (mkQueryAst (macros q) (q_expressions q ++ [e]) opts)
  | pragma_words => Ok (mkQueryAst (macros q) (q_expressions q) (set_max_words opts (nth_error (parse_numbers (node_inner n)) 0)))
  | pragma_dict => Ok (mkQueryAst (macros q) (q_expressions q) (set_dictionary opts (Some (concat (map node_text (node_inner n))))))
  | pragma_limit => Ok (mkQueryAst (macros q) (q_expressions q) (set_limit opts (nth_error (parse_numbers (node_inner n)) 0)))
  | pragma_quiet => Ok (mkQueryAst (macros q) (q_expressions q) (set_quiet opts (Some true)))
  | pragma_wordlist => Ok (mkQueryAst (macros q) (q_expressions q) (set_wordlist opts (Some [])))
  | macro_define =>
      let terms := map node_text (filter (fun p => is_rule macro_name p || is_rule macro_value p) (node_inner n)) in
      do k <- index terms 0; do v <- index terms 1;
      Ok (mkQueryAst (map_insert k v (macros q)) (q_expressions q) opts)
  | _ => Ok q
  end.
(** parser.rs:128-190: one line. The list of words under construction is kept in the options, which
    is where parser.rs:191-194 puts it in the end. *)
Definition parse_query_line (u : unicode) (q : query_ast) (i : nat) (line : text) : outcome (attempt query_ast) :=
  match wordlist (q_options q) with
  | Some wl =>
      let line := trim line in
      if text_eqb line [] then Ok (Parsed q)
      else Ok (Parsed (mkQueryAst (macros q) (q_expressions q)
             (set_wordlist (q_options q) (Some (wl ++ [word_new u line 1 (N.modulo (N.of_nat i) (2 ^ 32))])))))
  | None =>
      match parse_rule query (substitute (macros q) line) with
      | PFuel => OutOfFuel
      | PFail => Ok (ParseError (i + 1))
      | PMatch _ [] => Panic
      | PMatch _ (n :: _) =>
          match node_inner n with
          | [] => Ok (Parsed q)
          | p :: _ => do q' <- add_line q p; Ok (Parsed q')
          end
      end
  end.
Fixpoint parse_query_lines (u : unicode) (q : query_ast) (i : nat) (ls : list text) : outcome (attempt query_ast) :=
  match ls with
  | [] => Ok (Parsed q)
  | l :: ls' =>
      do r <- parse_query_line u q i l;
      match r with
      | Parsed q' => parse_query_lines u q' (S i) ls'
      | ParseError n => Ok (ParseError n)
      end
  end.
(** parser.rs:104-205 QueryAst::new_from_str *)
Definition parse_query (u : unicode) (input : text) : outcome (attempt query_ast) :=
  do r <- parse_query_lines u (mkQueryAst [] [] no_query_options) 0 (split_lines input);
  match r with
  | ParseError n => Ok (ParseError n)
  | Parsed q =>
      do es <- expand_expressions (q_expressions q);
      Ok (Parsed (mkQueryAst (macros q) es (set_wordlist (q_options q) (option_map sort_words (wordlist (q_options q))))))
  end.

(** ** Printing *)
(** usize Display *)
Fixpoint digits_from (fuel : nat) (n : N) (acc : text) : text :=
  match fuel with
  | 0 => acc
  | S f => let acc := (48 + N.modulo n 10)%N :: acc in
           if N.ltb n 10 then acc else digits_from f (N.div n 10) acc
  end.
Definition show_nat (n : nat) : text := digits_from (S (N.to_nat (N.size (N.of_nat n)))) (N.of_nat n) [].
(** words.rs:59-64 *)
Definition show_char (c : char) : outcome text := do x <- into_char c; Ok [x].
(** words.rs:127-151 *)
Definition show_charset (x : charset) : outcome text :=
  if N.eqb x LETTERS then Ok (str ".")
  else if N.eqb x ALL then Ok (str "[a-z_']")
  else
    let ones := length (filter (mem x) (seq 0 32)) in
    if ones =? 0 then Ok (str "0")
    else
      do cs <- mapM show_char (filter (mem x) (seq 0 CHAR_MAX));
      Ok (if 1 <? ones then str "[" ++ concat cs ++ str "]" else concat cs).
(** parser.rs:390-472 *)
Fixpoint show (a : ast) : outcome text :=
  let all := fix all (l : list ast) : outcome (list text) :=
    match l with [] => Ok [] | x :: l' => do t <- show x; do ts <- all l'; Ok (t :: ts) end in
  match a with
  | CharClass cs => show_charset cs
  | Alternatives l =>
      do ts <- all l;
      match ts with
      | [] => Ok []
      | t :: ts' => Ok (str "(" ++ t ++ flat_map (fun x => str "|" ++ x) ts' ++ str ")")
      end
  | Sequence l => do ts <- all l; Ok (if 1 <? length l then str "(" ++ concat ts ++ str ")" else concat ts)
  | Substring l => do ts <- all l; Ok (if 1 <? length l then str "(" ++ concat ts ++ str ":^)" else concat ts)
  | Repetition t mn mx =>
      do x <- show t;
      Ok (x ++ match mn, mx with
               | 0, None => str "*"
               | 0, Some 1 => str "?"
               | 1, None => str "+"
               | 0, Some m => str "{," ++ show_nat m ++ str "}"
               | m, None => str "{" ++ show_nat m ++ str ",}"
               | m, Some m' => if m =? m' then str "{" ++ show_nat m ++ str "}"
                               else str "{" ++ show_nat m ++ str "," ++ show_nat m' ++ str "}"
               end)
  | Anagram k bank =>
      do b <- mapM show_char bank;
      Ok (str "<" ++ concat b ++ match k with
          | Standard => []
          | Super => str "+"
          | Sub => str "-"
          | TransAdd n => str "+" ++ show_nat n
          | TransDelete n => str "-" ++ show_nat n
          end ++ str ">")
  end.
(** parser.rs:88-102 *)
Definition show_expr (e : expr_ast) : outcome text :=
  do t <- show (root e);
  Ok (t ++ (match explicit_word_boundaries (options e) with Some true => str " !_" | _ => [] end)
        ++ (match explicit_punctuation (options e) with Some true => str " !'" | _ => [] end)
        ++ (match opt_fuzz (options e) with Some n => str " !" ++ show_nat n | None => [] end)).
