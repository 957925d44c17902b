(** Properties C14, C41-C44, C49-C51 (parser.rs, noodle_grammar.pest), and C11, C35, C36, C39 for
    query texts. *)
From Coq Require Import String Permutation Sorted.
From Verif Require Import TextProofs WordsProofs NameProofs PropExpand.
Local Open Scope list_scope.

(** The symbols a text stands for. *)
Definition symbols (p : text) : list char := map char_of p.
(** A query asks for the strings all of its expressions denote. *)
Definition asks_for (q : query_ast) (w : list char) : Prop := Forall (fun e => matches (root e) w) (q_expressions q).

(** Helper used only in proofs. *)
Lemma asks_one e m o w : asks_for (mkQueryAst m [e] o) w <-> denotes (root e) w.
Proof. unfold asks_for. cbn [q_expressions]. rewrite denotes_matches. split; [intros H; inversion H; assumption|intros H; repeat constructor; exact H]. Qed.

(** ** C51: a plain word asks for itself *)
Theorem C51_plain_word : forall u p, letters p -> p <> [] -> exists q, parse_query u p = Ok (Parsed q) /\
  q_options q = no_query_options /\ macros q = [] /\ Forall (fun e => options e = no_options) (q_expressions q) /\
  forall w, asks_for q w <-> w = symbols p.
Proof. intros u p Hp Hn. eexists. split; [apply word_alone; assumption|]. split; [reflexivity|]. split; [reflexivity|]. split; [repeat constructor|]. intros w. rewrite asks_one. apply word_denotes. Qed.
Print Assumptions C51_plain_word.
Example C51_witness : letters (str "Noodle") /\ symbols (str "Noodle") = [13; 14; 14; 3; 11; 4].
Proof. split; [repeat constructor; unfold alpha; cbv; tauto|reflexivity]. Qed.

(** ** C14: the three operators on terms, and on letters as text *)
Theorem C14_subset_terms : forall l w, denotes (Sequence (map (fun c => Repetition c 0 (Some 1)) l)) w <->
  exists chosen, sublist chosen l /\ cats (map denotes chosen) w.
Proof. exact subset_language. Qed.
Print Assumptions C14_subset_terms.
Theorem C14_operators_parse : forall t ns l, Forall2 (fun n a => parse_term n = Ok (Some a)) ns l ->
  (exists a, parse_term (Node r_subset t ns) = Ok (Some a) /\ forall w, denotes a w <-> exists chosen, sublist chosen l /\ cats (map denotes chosen) w) /\
  (exists a, parse_term (Node r_superset t ns) = Ok (Some a) /\ forall w, denotes a w <-> with_gaps (map denotes l) w) /\
  (exists a, parse_term (Node substring t ns) = Ok (Some a) /\ forall w, denotes a w <-> exists before run after, l = before ++ run ++ after /\ cats (map denotes run) w).
Proof.
  intros t ns l H. split; [|split].
  - eexists. split; [apply parse_subset; exact H|]. apply subset_language.
  - eexists. split; [apply parse_superset; exact H|]. apply superset_language.
  - eexists. split; [apply parse_substring; exact H|]. apply substring_language.
Qed.
Print Assumptions C14_operators_parse.
Theorem C14_subset_text : forall u p, letters p -> p <> [] -> exists q, parse_query u (str "(" ++ p ++ str ":-)") = Ok (Parsed q) /\
  Forall (fun e => options e = no_options) (q_expressions q) /\ forall w, asks_for q w <-> sublist w (symbols p).
Proof.
  intros u p Hp Hn. eexists. split; [apply (operator_alone u r_subset 45 p Hp Hn); right; left; split; reflexivity|]. split.
  - repeat constructor. cbn [options]. rewrite single_options. apply optional_options. exact Hp.
  - intros w. rewrite asks_one. apply subset_letters.
Qed.
Print Assumptions C14_subset_text.
(** A superset makes word ends and punctuation significant. *)
Theorem C14_superset_text : forall u p, letters p -> p <> [] -> exists q, parse_query u (str "(" ++ p ++ str ":+)") = Ok (Parsed q) /\
  Forall (fun e => options e = mkExprOptions (Some true) (Some true) None) (q_expressions q) /\ forall w, asks_for q w <-> sublist (symbols p) w /\ Forall (fun c => c < 28) w.
Proof.
  intros u p Hp Hn. eexists. split; [apply (operator_alone u r_superset 43 p Hp Hn); right; right; split; reflexivity|]. split.
  - repeat constructor. cbn [options]. rewrite single_options. apply superset_options. exact Hp.
  - intros w. rewrite asks_one. apply superset_letters.
Qed.
Print Assumptions C14_superset_text.
Theorem C14_substring_text : forall u p, letters p -> p <> [] -> exists q, parse_query u (str "(" ++ p ++ str ":^)") = Ok (Parsed q) /\
  Forall (fun e => options e = no_options) (q_expressions q) /\ forall w, asks_for q w <-> exists before after, symbols p = before ++ w ++ after.
Proof.
  intros u p Hp Hn. eexists. split; [apply (operator_alone u substring 94 p Hp Hn); left; split; reflexivity|]. split.
  - repeat constructor. cbn [options]. rewrite single_options. apply substring_options. exact Hp.
  - intros w. rewrite asks_one. apply substring_letters.
Qed.
Print Assumptions C14_substring_text.

(** ** C35, C36: the anagram blocks as text *)
(** Helper used only in proofs. *)
Lemma block_asks u r d t p n : letters p -> p <> [] -> block_text r d t -> number_value d = Some n -> exists q, parse_query u (angled p t) = Ok (Parsed q) /\
  forall w, asks_for q w <-> anagram_of (block_kind r n (symbols p)) (symbols p) w.
Proof.
  intros Hp Hn Hb Hv. rewrite (block_alone u r d t p n Hp Hn Hb Hv). unfold block_expr. destruct (alone_exact (detect_options (Sequence [Anagram (block_kind r n (symbols p)) (symbols p)]) no_options) (block_kind r n (symbols p)) (symbols p) (bank_small p)) as (es & E & H).
  fold (symbols p). rewrite E. eexists. split; [reflexivity|]. exact H.
Qed.
Theorem C35_anagram_text : forall u p, letters p -> p <> [] -> exists q, parse_query u (str "<" ++ p ++ str ">") = Ok (Parsed q) /\
  forall w, asks_for q w <-> Permutation (symbols p) w.
Proof. intros u p Hp Hn. exact (block_asks u anagram None (str ">") p 0 Hp Hn bt_anagram eq_refl). Qed.
Print Assumptions C35_anagram_text.
Theorem C36_superanagram_text : forall u p, letters p -> p <> [] -> exists q, parse_query u (str "<" ++ p ++ str "+>") = Ok (Parsed q) /\
  forall w, asks_for q w <-> exists extra, Permutation (symbols p ++ extra) w /\ Forall (fun c => c < 26) w.
Proof. intros u p Hp Hn. exact (block_asks u superanagram None (str "+>") p 0 Hp Hn bt_super eq_refl). Qed.
Print Assumptions C36_superanagram_text.
Theorem C36_subanagram_text : forall u p, letters p -> p <> [] -> exists q, parse_query u (str "<" ++ p ++ str "->") = Ok (Parsed q) /\
  forall w, asks_for q w <-> exists unused, Permutation (symbols p) (w ++ unused).
Proof. intros u p Hp Hn. exact (block_asks u subanagram None (str "->") p 0 Hp Hn bt_sub eq_refl). Qed.
Print Assumptions C36_subanagram_text.
(** Helper used only in proofs. *)
Lemma digits_value d : digits d -> d <> [] -> (decimal d < 2 ^ 64)%N -> parse_usize d = Some (N.to_nat (decimal d)).
Proof. intros H Hn Hd. rewrite parse_usize_decimal by assumption. apply N.ltb_lt in Hd. rewrite Hd. reflexivity. Qed.
Theorem C36_transadd_text : forall u p d, letters p -> p <> [] -> digits d -> d <> [] -> (decimal d < 2 ^ 64)%N ->
  exists q, parse_query u (str "<" ++ p ++ str "+" ++ d ++ str ">") = Ok (Parsed q) /\
  forall w, asks_for q w <-> exists extra, Permutation (symbols p ++ extra) w /\ Forall (fun c => c < 26) w /\ length extra = N.to_nat (decimal d).
Proof. intros u p d Hp Hn Hd Hdn Hv. exact (block_asks u transadd (Some d) _ p _ Hp Hn (bt_add d Hd Hdn) (digits_value d Hd Hdn Hv)). Qed.
Print Assumptions C36_transadd_text.
(** Leaving out more letters than there are leaves out all of them. *)
Theorem C36_transdelete_text : forall u p d, letters p -> p <> [] -> digits d -> d <> [] -> (decimal d < 2 ^ 64)%N ->
  exists q, parse_query u (str "<" ++ p ++ str "-" ++ d ++ str ">") = Ok (Parsed q) /\
  forall w, asks_for q w <-> exists unused, Permutation (symbols p) (w ++ unused) /\ length unused = Nat.min (N.to_nat (decimal d)) (length p).
Proof.
  intros u p d Hp Hn Hd Hdn Hv. destruct (block_asks u transdelete (Some d) _ p _ Hp Hn (bt_delete d Hd Hdn) (digits_value d Hd Hdn Hv)) as (q & E & H). exists q. split; [exact E|]. intros w. rewrite H. cbn [block_kind anagram_of].
  assert (L : length (symbols p) = length p) by apply map_length. rewrite L. rewrite (Nat.min_l (Nat.min _ _)) by lia. reflexivity.
Qed.
Print Assumptions C36_transdelete_text.
Example C36_witness : letters (str "cat") /\ digits (str "12") /\ decimal (str "12") = 12%N /\ symbols (str "cat") = [2; 0; 19].
Proof. repeat split; repeat constructor; unfold alpha; cbv; tauto. Qed.

(** ** C39, C11: a text whose expression keeps a block, so that compiling it panics (unreachable!) *)
Theorem C39_text_refuted : forall u, exists q, parse_query u (str "<ab>*") = Ok (Parsed q) /\ Exists (fun e => has_block (root e) = true) (q_expressions q).
Proof. intros u. eexists. split; [vm_compute; reflexivity|]. left. reflexivity. Qed.
Print Assumptions C39_text_refuted.
Theorem C11_text_refuted : forall u, exists q e, parse_query u (str "<ab>*") = Ok (Parsed q) /\ In e (q_expressions q) /\ forall ovf, from_ast ovf e = Panic.
Proof. intros u. do 2 eexists. split; [vm_compute; reflexivity|]. split; [left; reflexivity|]. intros [|]; vm_compute; reflexivity. Qed.
Print Assumptions C11_text_refuted.

(** ** C41: printing and parsing again *)
Definition reparse (t : text) : outcome (attempt expr_ast) :=
  do r <- parse_expr_text t; match r with Parsed e => do t' <- show_expr e; parse_expr_text t' | ParseError n => Ok (ParseError n) end.
(** "hello" is printed as "(hello)", which is parsed as a sequence inside a sequence *)
Theorem C41_same_expression_refuted : exists t e, parse_expr_text t = Ok (Parsed e) /\ exists e', reparse t = Ok (Parsed e') /\ e' <> e.
Proof. exists (str "hello"). eexists. split; [vm_compute; reflexivity|]. eexists. split; [vm_compute; reflexivity|]. discriminate. Qed.
Print Assumptions C41_same_expression_refuted.
(** "(a?)*" is printed as "a?*", which is not an expression *)
Theorem C41_parses_again_refuted : exists t e n, parse_expr_text t = Ok (Parsed e) /\ reparse t = Ok (ParseError n).
Proof. exists (str "(a?)*"). do 2 eexists. split; vm_compute; reflexivity. Qed.
Print Assumptions C41_parses_again_refuted.
(** "(a:^)" also matches the empty string, but is printed as "a" *)
Theorem C41_same_language_refuted : exists t e e' w, parse_expr_text t = Ok (Parsed e) /\ reparse t = Ok (Parsed e') /\ matches (root e) w /\ ~ matches (root e') w.
Proof.
  exists (str "(a:^)"). do 2 eexists. exists []. split; [vm_compute; reflexivity|]. split; [vm_compute; reflexivity|]. split.
  - cbn [root matches map cats fold_right]. exists [], []. split; [reflexivity|]. split; [|reflexivity]. exists [], [], [fun w => exists c, w = [c] /\ cs_contains 1%N c = true]. split; reflexivity.
  - cbn [root matches map cats fold_right]. intros (x & y & E & (c & -> & _) & _). discriminate E.
Qed.
Print Assumptions C41_same_language_refuted.
(** "[^a-z]", which matches nothing, is printed as "0", which matches a word end *)
Theorem C41_empty_class_refuted : exists t e e' w, parse_expr_text t = Ok (Parsed e) /\ reparse t = Ok (Parsed e') /\ ~ matches (root e) w /\ matches (root e') w.
Proof.
  exists (str "[^a-z]"). do 2 eexists. exists [27]. split; [vm_compute; reflexivity|]. split; [vm_compute; reflexivity|]. split.
  - cbn [root matches map cats fold_right]. intros (x & y & E & (c & -> & H) & ->). injection E as <-. vm_compute in H. discriminate H.
  - cbn [root matches map cats fold_right]. exists [27], []. split; [reflexivity|]. split; [|reflexivity]. exists [], [27]. split; [reflexivity|]. split; [exists 0; repeat split; [lia|intros m [= <-]; lia]|]. exists [27], []. split; [reflexivity|]. split; [exists 27; split; reflexivity|reflexivity].
Qed.
Print Assumptions C41_empty_class_refuted.

(** ** C42: comments *)
(** Block comments are not recognised at all: the text between the marks takes the end mark as well. *)
Theorem C42_block_comment_refuted : forall u, (exists q, parse_query u (str "a") = Ok (Parsed q)) /\ parse_query u (str "a /*hi*/") = Ok (ParseError 1).
Proof. intros u. split; [eexists|]; vm_compute; reflexivity. Qed.
Print Assumptions C42_block_comment_refuted.
(** An empty line comment is an error. *)
Theorem C42_empty_comment_refuted : forall u, parse_query u (str "a //") = Ok (ParseError 1).
Proof. intros u. vm_compute. reflexivity. Qed.
Print Assumptions C42_empty_comment_refuted.
(** A line comment ("//..." or "--...") that says something changes nothing, on whatever line (before
    any macro or word list; macros are expanded inside comments as well). The line may not itself end
    in a slash or a dash. *)
Theorem C42_line_comments_are_ignored_partial : forall u before l k c later q,
  Forall one_line before -> one_line l -> one_line c -> Forall one_line later ->
  parse_query u (unlines before) = Ok (Parsed q) -> macros q = [] -> wordlist (q_options q) = None ->
  k = 47%N \/ k = 45%N -> c <> [] -> (forall p a, l = p ++ [a] -> a <> 47%N /\ a <> 45%N) ->
  parse_query u (unlines (before ++ (l ++ k :: k :: c) :: later)) = parse_query u (unlines (before ++ l :: later)).
Proof. exact comment_anywhere. Qed.
Print Assumptions C42_line_comments_are_ignored_partial.
Example C42_witness : forall u, unlines ([str "abc"; []] ++ (str "d{2}" ++ 47%N :: 47%N :: str " two ds") :: [str "#limit 3"]) =
  str "abc" ++ [10%N; 10%N] ++ str "d{2}// two ds" ++ [10%N] ++ str "#limit 3" /\ exists q, parse_query u (unlines [str "abc"; []]) = Ok (Parsed q) /\ macros q = [] /\ wordlist (q_options q) = None.
Proof. intros u. split; [reflexivity|]. eexists. split; [vm_compute; reflexivity|]. split; reflexivity. Qed.
(** The same below definitions of macros, which are expanded in the line and in the comment alike: the
    comment has to say something when expanded, and the expanded line may not end in the character of
    the mark or in a mark. *)
Theorem C42_comments_below_macros_partial : forall u before l l' k c c' later q,
  Forall one_line before -> one_line l -> one_line c -> Forall one_line later ->
  parse_query u (unlines before) = Ok (Parsed q) -> wordlist (q_options q) = None ->
  k = 47%N \/ k = 45%N -> expanded (macros q) l l' -> expanded (macros q) c c' ->
  c' <> [] -> (forall p, l' <> p ++ [k] /\ l' <> p ++ [47; 47]%N /\ l' <> p ++ [45; 45]%N) ->
  parse_query u (unlines (before ++ (l ++ k :: k :: c) :: later)) = parse_query u (unlines (before ++ l :: later)).
Proof. exact comments_after_macros. Qed.
Print Assumptions C42_comments_below_macros_partial.
Example C42_below_macros_met : forall u, exists q, parse_query u (unlines [str "v=[aeiou]"; str "w=vv"]) = Ok (Parsed q) /\
  macros q = [(str "v", str "[aeiou]"); (str "w", str "[aeiou][aeiou]")] /\ wordlist (q_options q) = None /\
  expanded (macros q) (str "bw") (str "b[aeiou][aeiou]") /\ expanded (macros q) (str " w is vv") (str " [aeiou][aeiou] is [aeiou][aeiou]").
Proof.
  intros u. eexists. split; [vm_compute; reflexivity|]. cbn [macros]. split; [reflexivity|]. split; [reflexivity|].
  split; (match goal with |- expanded ?m ?t ?r => replace r with (substitute m t) by (vm_compute; reflexivity) end; apply substitute_spec; repeat constructor; discriminate).
Qed.
(** Both conditions are needed: "x=a/" defines x as "a/", "x=a///..." as "a"; "a//" is an error, "a//--..." is not. *)
Theorem C42_ends_refuted : forall u,
  (exists q, parse_query u (str "x=a/") = Ok (Parsed q) /\ macros q = [(str "x", str "a/")]) /\
  (exists q, parse_query u (str "x=a/" ++ str "//why") = Ok (Parsed q) /\ macros q = [(str "x", str "a")]) /\
  (exists q, parse_query u (str "x=a/" ++ str "--why") = Ok (Parsed q) /\ macros q = [(str "x", str "a/")]) /\
  parse_query u (str "a//") = Ok (ParseError 1) /\ exists q, parse_query u (str "a//" ++ str "--why") = Ok (Parsed q).
Proof. intros u. do 3 (split; [eexists; split; [vm_compute; reflexivity|reflexivity]|]). split; [vm_compute; reflexivity|]. eexists. vm_compute. reflexivity. Qed.
Print Assumptions C42_ends_refuted.
(** Below #wordlist a comment is part of the word. *)
Theorem C42_wordlist_refuted : forall u, exists q q', parse_query u (unlines [str "#wordlist"; str "a"]) = Ok (Parsed q) /\ parse_query u (unlines [str "#wordlist"; str "a//b"]) = Ok (Parsed q') /\
  option_map (map w_text) (wordlist (q_options q)) = Some [str "a"] /\ option_map (map w_text) (wordlist (q_options q')) = Some [str "a//b"].
Proof. intros u. do 2 eexists. split; [vm_compute; reflexivity|]. split; [vm_compute; reflexivity|]. repeat split; vm_compute; reflexivity. Qed.
Print Assumptions C42_wordlist_refuted.
(** A macro with an empty value turns a comment into an error. *)
Theorem C42_macros_reach_comments_refuted : forall u, (exists q, parse_query u (str "x=;a") = Ok (Parsed q)) /\ parse_query u (str "x=;a//x") = Ok (ParseError 2).
Proof. intros u. split; [eexists|]; vm_compute; reflexivity. Qed.
Print Assumptions C42_macros_reach_comments_refuted.

(** ** C43: lines and pragmas *)
(** Text and a further line: the expressions of the line come last, its settings win. An error is
    reported with the number of the line. *)
Theorem C43_one_more_line : forall u t s l q, sep s -> one_line l -> numbers_fit l ->
  parse_query u t = Ok (Parsed q) -> macros q = [] -> wordlist (q_options q) = None ->
  match parse_query u l with
  | Ok (Parsed q2) => exists q', parse_query u (t ++ s :: l) = Ok (Parsed q') /\
      q_expressions q' = q_expressions q ++ q_expressions q2 /\ q_options q' = override (q_options q) (q_options q2)
  | Ok (ParseError n) => n = 1 /\ parse_query u (t ++ s :: l) = Ok (ParseError (line_count t + 1))
  | _ => False
  end.
Proof.
  intros u t s l q Hs Hl Hf Ht Hm Hw. assert (He : expanded (macros q) l l) by (rewrite Hm; constructor). pose proof (compose_spec u t s l q l Hs Hl Ht Hw He Hf) as H.
  rewrite split_count in H. destruct (parse_query u l) as [[q2|n]| | |]; [|exact H|exact H|exact H|exact H]. destruct H as (q' & H1 & H2 & H3 & _). eauto.
Qed.
Print Assumptions C43_one_more_line.
Theorem C43_blank : forall u sp, spaces sp -> parse_query u sp = Ok (Parsed (mkQueryAst [] [] no_query_options)).
Proof. exact blank_alone. Qed.
Print Assumptions C43_blank.
(** Numbers above 64 bits silently mean "no limit given". *)
Theorem C43_limit : forall u sp d, spaces sp -> digits d -> d <> [] ->
  parse_query u (str "#limit" ++ sp ++ d) = Ok (Parsed (mkQueryAst [] [] (mkQueryOptions None None (if N.ltb (decimal d) (2 ^ 64) then Some (N.to_nat (decimal d)) else None) None None))).
Proof. intros u sp d Hs Hd Hn. rewrite <- (parse_usize_decimal d Hd Hn). exact (limit_alone u sp d Hs Hd Hn). Qed.
Print Assumptions C43_limit.
Theorem C43_words : forall u sp d, spaces sp -> digits d -> d <> [] ->
  parse_query u (str "#words" ++ sp ++ d) = Ok (Parsed (mkQueryAst [] [] (mkQueryOptions (if N.ltb (decimal d) (2 ^ 64) then Some (N.to_nat (decimal d)) else None) None None None None))).
Proof. intros u sp d Hs Hd Hn. rewrite <- (parse_usize_decimal d Hd Hn). exact (words_alone u sp d Hs Hd Hn). Qed.
Print Assumptions C43_words.
Theorem C43_dictionary : forall u sp n, spaces sp -> Forall name_char n -> n <> [] ->
  parse_query u (str "#dict" ++ sp ++ n) = Ok (Parsed (mkQueryAst [] [] (mkQueryOptions None (Some n) None None None))).
Proof. exact dict_alone. Qed.
Print Assumptions C43_dictionary.
Theorem C43_quiet : forall u, parse_query u (str "#quiet") = Ok (Parsed (mkQueryAst [] [] (mkQueryOptions None None None (Some true) None))).
Proof. intros u. vm_compute. reflexivity. Qed.
Print Assumptions C43_quiet.
Theorem C43_wordlist : forall u, parse_query u (str "#wordlist") = Ok (Parsed (mkQueryAst [] [] (mkQueryOptions None None None None (Some [])))).
Proof. intros u. vm_compute. reflexivity. Qed.
Print Assumptions C43_wordlist.
(** After #wordlist every line that is not blank is a word of tranche 1, scored by its line number;
    nothing else changes; the list is kept sorted. *)
Theorem C43_words_follow : forall u t s l q wl, sep s -> one_line l -> parse_query u t = Ok (Parsed q) -> wordlist (q_options q) = Some wl ->
  exists wl', parse_query u (t ++ s :: l) = Ok (Parsed (mkQueryAst (macros q) (q_expressions q)
      (mkQueryOptions (max_words (q_options q)) (dictionary (q_options q)) (results_limit (q_options q)) (quiet (q_options q)) (Some wl')))) /\
  Sorted word_le wl' /\
  exists x, trimmed l x /\ (x = [] -> wl' = wl) /\
  (x <> [] -> Permutation wl' (word_new u x 1 (N.modulo (N.of_nat (line_count t)) (2 ^ 32)) :: wl)).
Proof.
  intros u t s l q wl Hs Hl Ht Hw. destruct (wordlist_line u t s l q wl Hs Hl Ht Hw) as (wl' & E & Ho & H). exists wl'. split; [exact E|]. split; [exact Ho|]. exists (trim l). split; [apply trim_spec|]. rewrite <- split_count.
  destruct (text_eqb (trim l) []) eqn:Et; [apply text_eqb_true in Et|]; split; intros G; try assumption; try congruence. rewrite G in Et. discriminate Et.
Qed.
Print Assumptions C43_words_follow.
(** What [trimmed] takes away: the white space of Unicode. *)
Theorem C43_white_space : forall c, is_white c = true <->
  In c [9; 10; 11; 12; 13; 32; 133; 160; 5760; 8192; 8193; 8194; 8195; 8196; 8197; 8198; 8199; 8200; 8201; 8202; 8232; 8233; 8239; 8287; 12288]%N.
Proof. intros c. unfold is_white, in_range. rewrite !orb_true_iff, !andb_true_iff, !N.leb_le, !N.eqb_eq. cbn [In]. lia. Qed.
Print Assumptions C43_white_space.
Example C43_witness : forall u, exists q, parse_query u (str "abc;#words 3") = Ok (Parsed q) /\ length (q_expressions q) = 1 /\ max_words (q_options q) = Some 3 /\
  exists q', parse_query u (str "abc;#words 3;#WORDS 4") = Ok (Parsed q') /\ max_words (q_options q') = Some 4.
Proof. intros u. eexists. split; [vm_compute; reflexivity|]. split; [reflexivity|]. split; [reflexivity|]. eexists. split; [vm_compute; reflexivity|]. reflexivity. Qed.

(** ** C44: macros *)
(** A line means what it says after replacing, for each macro in order of first definition, all
    occurrences of its name (anywhere, also inside other words) by its current value. A definition
    binds the name. *)
Theorem C44_macros_are_substituted : forall u t s l q l', sep s -> one_line l -> parse_query u t = Ok (Parsed q) -> wordlist (q_options q) = None ->
  expanded (macros q) l l' -> numbers_fit l' ->
  match parse_query u l' with
  | Ok (Parsed q2) => exists q', parse_query u (t ++ s :: l) = Ok (Parsed q') /\
      q_expressions q' = q_expressions q ++ q_expressions q2 /\ q_options q' = override (q_options q) (q_options q2) /\
      match macros q2 with [] => macros q' = macros q | (k, v) :: _ => bind_macro (macros q) k v (macros q') end
  | Ok (ParseError n) => n = 1 /\ parse_query u (t ++ s :: l) = Ok (ParseError (line_count t + 1))
  | _ => False
  end.
Proof. intros u t s l q l' H1 H2 H3 H4 H5 H6. rewrite <- split_count. exact (compose_spec u t s l q l' H1 H2 H3 H4 H5 H6). Qed.
Print Assumptions C44_macros_are_substituted.
(** ... and there is always exactly one such line. *)
Theorem C44_expansion_is_unique : forall u t q l, parse_query u t = Ok (Parsed q) -> exists l', expanded (macros q) l l' /\ forall l'', expanded (macros q) l l'' -> l'' = l'.
Proof.
  intros u t q l H. exists (substitute (macros q) l). assert (E : expanded (macros q) l (substitute (macros q) l)) by (apply substitute_spec; eapply parse_named; exact H).
  split; [exact E|]. intros l'' E'. eapply expanded_fun; eassumption.
Qed.
Print Assumptions C44_expansion_is_unique.
(** A name begins with a letter and goes on with letters, digits, underscores and spaces; a value is printable ASCII. *)
Theorem C44_names_and_values : forall u t q k v, parse_query u t = Ok (Parsed q) -> In (k, v) (macros q) ->
  (exists c k', k = c :: k' /\ (97 <= c <= 122 \/ 65 <= c <= 90)%N /\
    Forall (fun c => (97 <= c <= 122 \/ 65 <= c <= 90) \/ 48 <= c <= 57 \/ c = 95 \/ c = 32)%N k') /\
  Forall (fun c => 32 <= c <= 126)%N v.
Proof. intros u t q k v H Hin. pose proof (parse_clear _ _ _ H) as G. unfold clear in G. rewrite Forall_forall in G. exact (G _ Hin). Qed.
Print Assumptions C44_names_and_values.
Example C44_names_met : forall u, exists q, parse_query u (str "  x 1_y =  a b // why") = Ok (Parsed q) /\ macros q = [(str "x 1_y", str "a b")].
Proof. intros u. eexists. split; [vm_compute; reflexivity|]. reflexivity. Qed.
Example C44_witness : forall u, exists q, parse_query u (str "V=[aeiou];W=V*") = Ok (Parsed q) /\ macros q = [(str "V", str "[aeiou]"); (str "W", str "[aeiou]*")].
Proof. intros u. eexists. split; [vm_compute; reflexivity|]. reflexivity. Qed.

(** ** C49: names of dictionaries *)
(** Whatever follows #dict, the name consists of letters, dots, apostrophes and underscores: dashes
    are dropped and digits are errors, so no other dictionary can ever be selected. *)
Theorem C49_selectable_names : forall u t q d, parse_query u t = Ok (Parsed q) -> dictionary (q_options q) = Some d -> Forall name_char d.
Proof. exact parse_names. Qed.
Print Assumptions C49_selectable_names.
Theorem C49_any_name_refuted : forall u t q, parse_query u t = Ok (Parsed q) -> dictionary (q_options q) <> Some (str "npl-allwords2").
Proof.
  intros u t q H E. apply (parse_names u t q _ H) in E. rewrite Forall_forall in E. specialize (E 50%N). assert (I : In 50%N (str "npl-allwords2")) by (vm_compute; tauto). apply E in I. unfold name_char in I. vm_compute in I. destruct I as [I|[I|[I|[I|I]]]]; discriminate I.
Qed.
Print Assumptions C49_any_name_refuted.
Theorem C49_text_not_selected_refuted : forall u, parse_query u (str "#dict npl-allwords2") = Ok (ParseError 1) /\
  (exists q, parse_query u (str "#dict foo-bar") = Ok (Parsed q) /\ dictionary (q_options q) = Some (str "foobar")) /\
  (exists q, parse_query u (str "#dictionary foo") = Ok (Parsed q) /\ dictionary (q_options q) = Some (str "ionaryfoo")).
Proof. intros u. split; [vm_compute; reflexivity|]. split; eexists; (split; [vm_compute; reflexivity|reflexivity]). Qed.
Print Assumptions C49_text_not_selected_refuted.
Example C49_witness : Forall name_char (str "scrabble").
Proof. repeat constructor; unfold name_char; cbv; tauto. Qed.

(** ** C50: parsing returns *)
(** For every text: the parser terminates, without undefined behaviour. *)
Theorem C50_parsing_terminates : forall u t, parse_query u t <> OutOfFuel /\ parse_query u t <> UB.
Proof. intros u t. apply parse_settles. Qed.
Print Assumptions C50_parsing_terminates.
(** Numbers that do not fit 64 bits make it panic. *)
Theorem C50_never_panics_refuted : forall u, parse_query u (str "a{99999999999999999999}") = Panic.
Proof. intros u. vm_compute. reflexivity. Qed.
Print Assumptions C50_never_panics_refuted.
(** Nothing else does, in texts without macros. *)
Theorem C50_never_panics_partial : forall u t, Forall (fun c => c <> 61%N) t -> numbers_fit t ->
  exists r, parse_query u t = Ok r /\ match r with Parsed _ => True | ParseError n => 1 <= n <= line_count t end.
Proof. intros u t. rewrite <- split_count. exact (parse_never_panics u t). Qed.
Print Assumptions C50_never_panics_partial.
