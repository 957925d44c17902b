(** Properties C57 and C66: whole query texts, with comments, definitions of macros, pragmas and a
    wordlist of their own (parser.rs:104-205, noodle_grammar.pest). *)
From Coq Require Import String Permutation Sorted Lia.
From Verif Require Import ScriptProofs TextProofs PropSyntax.
From Verif Require Import Syntax Script.
Local Open Scope list_scope.

(** ** Whole texts *)
(** The text is read as the lines it comes to, with the words it lists. With anagram blocks, nothing is
    lost; see C38 for what is wrongly added. *)
Theorem C57_script_means : forall u ls own t, writes_script u ls own t ->
  exists q ess, parse_query u t = Ok (Parsed q) /\
  max_words (q_options q) = latest words_line ls /\ dictionary (q_options q) = latest dict_line ls /\
  Parser.results_limit (q_options q) = latest limit_line ls /\ wordlist (q_options q) = own /\
  q_expressions q = concat ess /\ Forall2 stands_for (patterns ls) ess.
Proof. exact script_stands. Qed.
Print Assumptions C57_script_means.

(** ** Macros *)
(** After any text without a wordlist, a definition gives the name the value and changes nothing else.
    Missing: names of one letter followed by a space, for which it is false. *)
Theorem C66_definition_partial : forall u t s x x' k v q, sep s -> one_line x -> parse_query u t = Ok (Parsed q) -> wordlist (q_options q) = None ->
  expanded (macros q) x x' -> says (Defines k v) x' ->
  exists q', parse_query u (t ++ s :: x) = Ok (Parsed q') /\ q_expressions q' = q_expressions q /\ q_options q' = q_options q /\ bind_macro (macros q) k v (macros q').
Proof. exact define_after. Qed.
Print Assumptions C66_definition_partial.
(** "x = (a|b)" defines nothing that is ever called "x": the name is "x ", with the space. *)
Theorem C66_one_letter_name_refuted : forall u c sp v, ascii_letter c -> spaces sp -> sp <> [] -> macro_value_text v ->
  exists q, parse_query u ([c] ++ sp ++ str "=" ++ v) = Ok (Parsed q) /\ macros q = [(c :: sp, v)] /\ lookup [c] (macros q) = None.
Proof.
  intros u c sp v Hc Hs Hn Hv. destruct (one_letter u c sp v Hc Hs Hv) as (q & E & Em). exists q. split; [exact E|]. split; [exact Em|]. rewrite Em. cbn [lookup text_eqb]. destruct sp; [congruence|]. rewrite andb_false_r. reflexivity.
Qed.
Print Assumptions C66_one_letter_name_refuted.
(** Then a line that uses the macro is read as if there were no such macro. *)
Example C66_macro_not_used : forall u, exists q, parse_query u (str "x = (a|b);cxt") = Ok (Parsed q) /\ exists q0, parse_query u (str "cxt") = Ok (Parsed q0) /\ q_expressions q = q_expressions q0.
Proof. intros u. eexists. split; [vm_compute; reflexivity|]. eexists. split; vm_compute; reflexivity. Qed.

(** ** Examples *)
Lemma nothing_sep (t : text) : forallb (fun c => negb (N.eqb c 10 || N.eqb c 59)) t = true -> one_line t.
Proof. intros H. apply Forall_forall. intros c Hc [-> | ->]; rewrite forallb_forall in H; discriminate (H _ Hc). Qed.
Lemma pragma_spaces n : spaces (repeat 32%N n).
Proof. induction n; constructor; auto. Qed.
Definition C57_script : text := str "VO = [ae] // vowels;cVOt-- any cat;#QUIET;#Words 3 ;#wordlist; cat;;  bet ".
Definition C57_script_lines : list line := [Pattern [[sy 99%N; Class false [Single 97%N; Single 101%N]; sy 116%N]] []; MaxWords 3].
Definition C57_script_words (u : unicode) : list word := [word_new u (str "cat") 1 5; word_new u (str "bet") 1 7].
Lemma vo_value : macro_value_text (str "[ae]").
Proof.
  change (str "[ae]") with [91; 97; 101; 93]%N. split; [repeat (constructor; [split; [lia|intros [H|H]; lia]|]); constructor|]. split; [intros t H; discriminate H|]. split.
  - intros t H. apply (f_equal (@rev N)) in H. rewrite rev_app_distr in H. cbn in H. discriminate H.
  - intros p k q H. destruct p as [|a [|b [|c [|d p]]]]; cbn [app] in H; try (injection H; intros; subst; discriminate). apply (f_equal (@length N)) in H. cbn [length app] in H. rewrite app_length in H. cbn [length] in H. lia.
Qed.
Lemma vo_define : says (Defines (str "VO") (str "[ae]")) (str "VO = [ae] // vowels").
Proof.
  rf (says_comment _ (str "VO = [ae] ") 47%N (str " vowels") (says_define [] (str "VO") (str " ") (str " ") (str "[ae]") (str " ") (Forall_nil _) _ (pragma_spaces 1) _ (pragma_spaces 1) vo_value (pragma_spaces 1)) (or_introl eq_refl) _ _).
  - exists 86%N, [79%N]. split; [reflexivity|]. split; [unfold ascii_letter; lia|]. constructor; [left; unfold ascii_letter; lia|constructor].
  - left. discriminate.
  - discriminate.
  - intros t' a H. apply (f_equal (@rev N)) in H. rewrite rev_app_distr in H. cbn in H. injection H as <- _. split; discriminate.
Qed.
Lemma vo_pattern : says (Says (Pattern [[sy 99%N; Class false [Single 97%N; Single 101%N]; sy 116%N]] [])) (str "c[ae]t-- any cat").
Proof.
  rf (says_comment _ (str "c[ae]t") 45%N (str " any cat") (says_line _ _ (wl_pattern _ _ _ _)) (or_intror eq_refl) _ _); [|discriminate|].
  - rf (we_intro [] _ (str "c[ae]t") _ [] (Forall_nil _) (wb_one _ _ _) wo_nil).
    rf (wp_more _ (str "c") [] _ (str "[ae]t") _ (Forall_nil _) _ (wp_more _ (str "[ae]") [] _ (str "t") _ (Forall_nil _) _ (wp_one _ (str "t") [] _ (Forall_nil _)))); [sym| |sym].
    rf (w_class [Single 97%N; Single 101%N] [str "a"; str "e"] _ _); [|discriminate]. repeat (constructor; [apply wi_single; unfold ascii_letter; lia|]). constructor.
  - intros t' a H. apply (f_equal (@rev N)) in H. rewrite rev_app_distr in H. cbn in H. injection H as <- _. split; discriminate.
Qed.
Lemma vo_named : named [(str "VO", str "[ae]")].
Proof. constructor; [discriminate|constructor]. Qed.
Lemma vo_expanded t t' : substitute [(str "VO", str "[ae]")] t = t' -> expanded [(str "VO", str "[ae]")] t t'.
Proof. intros <-. exact (substitute_spec _ vo_named t). Qed.
Example C57_script_written : forall u, exists ws, Permutation ws (C57_script_words u) /\ writes_script u C57_script_lines (Some ws) C57_script.
Proof.
  intros u. exists (sort_words (C57_script_words u)). split; [apply sort_words_perm|].
  exists [str "VO = [ae] // vowels"; str "cVOt-- any cat"; str "#QUIET"; str "#Words 3 "; str "#wordlist"; str " cat"; []; str "  bet "], (Some (C57_script_words u)). split; [|split; [|split; [apply sort_words_perm|apply sort_words_sorted]]].
  - apply (lines_more (str "VO = [ae] // vowels") 59%N (str "cVOt-- any cat;#QUIET;#Words 3 ;#wordlist; cat;;  bet ")); [apply nothing_sep; reflexivity|right; reflexivity|].
    apply (lines_more (str "cVOt-- any cat") 59%N (str "#QUIET;#Words 3 ;#wordlist; cat;;  bet ")); [apply nothing_sep; reflexivity|right; reflexivity|].
    apply (lines_more (str "#QUIET") 59%N (str "#Words 3 ;#wordlist; cat;;  bet ")); [apply nothing_sep; reflexivity|right; reflexivity|].
    apply (lines_more (str "#Words 3 ") 59%N (str "#wordlist; cat;;  bet ")); [apply nothing_sep; reflexivity|right; reflexivity|].
    apply (lines_more (str "#wordlist") 59%N (str " cat;;  bet ")); [apply nothing_sep; reflexivity|right; reflexivity|].
    apply (lines_more (str " cat") 59%N (str ";  bet ")); [apply nothing_sep; reflexivity|right; reflexivity|].
    apply (lines_more [] 59%N (str "  bet ")); [constructor|right; reflexivity|]. apply lines_one. apply nothing_sep; reflexivity.
  - apply rd_define with (str "VO = [ae] // vowels") (str "VO") (str "[ae]") [(str "VO", str "[ae]")]; [constructor|exact vo_define|exact (insert_bind _ _ [])|].
    apply rd_line with (str "c[ae]t-- any cat"); [apply vo_expanded; reflexivity|exact vo_pattern|].
    apply rd_quiet with (str "#QUIET"); [apply vo_expanded; reflexivity|exact (says_quiet [] (str "#QUIET") [] (Forall_nil _) eq_refl (Forall_nil _))|].
    apply rd_line with (str "#Words 3 "); [apply vo_expanded; reflexivity|apply says_line; exact (wl_words [] (str "#Words") (str " ") (str "3") 3 (str " ") (Forall_nil _) eq_refl (pragma_spaces 1) (num1 51%N eq_refl) (pragma_spaces 1))|].
    apply rd_words with (str "#wordlist"); [apply vo_expanded; reflexivity|exact (says_words [] (str "#wordlist") [] (Forall_nil _) eq_refl (Forall_nil _))|].
    apply (wls_word u 5 (str " cat") (str "cat")); [exact (trim_spec (str " cat"))|discriminate|]. apply wls_blank; [exact (trim_spec [])|]. apply (wls_word u 7 (str "  bet ") (str "bet")); [exact (trim_spec (str "  bet "))|discriminate|]. constructor.
Qed.
(** The hypotheses of C66: the macro gets another value. *)
Example C66_definition_met : forall u, exists q x', parse_query u (str "#limit 7;V=b;WO=aV;cWOt") = Ok (Parsed q) /\ wordlist (q_options q) = None /\
  macros q = [(str "V", str "b"); (str "WO", str "ab")] /\ expanded (macros q) (str "XY = [ae] // vowels") x' /\ says (Defines (str "XY") (str "[ae]")) x'.
Proof.
  intros u. eexists. exists (str "XY = [ae] // vowels"). split; [vm_compute; reflexivity|]. split; [reflexivity|]. split; [reflexivity|]. split.
  - match goal with |- expanded ?m ?t _ => assert (Hm : named m) by (repeat (constructor; [discriminate|]); constructor); exact (substitute_spec m Hm t) end.
  - rf (says_comment _ (str "XY = [ae] ") 47%N (str " vowels") (says_define [] (str "XY") (str " ") (str " ") (str "[ae]") (str " ") (Forall_nil _) _ (pragma_spaces 1) _ (pragma_spaces 1) vo_value (pragma_spaces 1)) (or_introl eq_refl) _ _).
    + exists 88%N, [89%N]. split; [reflexivity|]. split; [unfold ascii_letter; lia|]. constructor; [left; unfold ascii_letter; lia|constructor].
    + left. discriminate.
    + discriminate.
    + intros t' a H. apply (f_equal (@rev N)) in H. rewrite rev_app_distr in H. cbn in H. injection H as <- _. split; discriminate.
Qed.
