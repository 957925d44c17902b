(** Property C57: texts and what they mean (parser.rs, noodle_grammar.pest), and what is printed for
    them. *)
From Coq Require Import String.
From Verif Require Import SyntaxProofs7.
From Verif Require Import Syntax.
Local Open Scope list_scope.

(** ** The grammar *)
(** A pattern is parsed as what it means, with the options asked for. *)
Theorem C57_pattern_means : forall bs rs t, writes_expression bs rs t ->
  exists e, parse_expr_text t = Ok (Parsed e) /\ (forall w, denotes (root e) w <-> means (Group bs) w) /\ options_asked bs rs (options e).
Proof.
  intros bs rs t H. exists (written_expr bs rs). split; [apply expression_text; exact H|]. destruct H as [sp bs t rs t' _ Hb _]. split; [intros w; exact (written_denotes bs t w Hb)|exact (written_options bs rs t Hb)].
Qed.
Print Assumptions C57_pattern_means.

(** Queries of several lines. With anagram blocks, nothing is lost; see C38 for what is wrongly
    added. *)
Theorem C57_query_means : forall u ls t, writes_query ls t ->
  exists q ess, parse_query u t = Ok (Parsed q) /\ macros q = [] /\
  q_options q = mkQueryOptions (latest words_line ls) (latest dict_line ls) (latest limit_line ls) None None /\
  q_expressions q = concat ess /\ Forall2 stands_for (patterns ls) ess.
Proof. exact query_stands. Qed.
Print Assumptions C57_query_means.

(** What the command-line tool prints for a query of patterns of symbols, repeated symbols,
    alternatives that end in a symbol and groups repeated a limited number of times
    ([Syntax.branched]), of symbols and runs of symbols ([Syntax.strung]), of
    groups of two or more symbols repeated without bound ([Syntax.ringed]), or of parts of these kinds
    between symbols ([Syntax.stitched]): one line for each word that fits all of them. Missing: the other patterns, for many of which it is false (see PropNfa). *)
Theorem C57_prints_partial : forall ovf u ls t ws, writes_query ls t -> patterns ls <> [] -> Forall (fun p => plain_pattern (fst p) = true) (patterns ls) ->
  forall lines, prints ovf u t ws lines <->
  exists sel, lines = map w_text (filter sel ws) /\ forall w, sel w = true <-> Forall (fun p => fits p (w_chars w)) (patterns ls).
Proof. exact written_prints. Qed.
Print Assumptions C57_prints_partial.

(** ** Examples *)
(** Helpers to write the examples down. *)
Definition sy (c : N) : pat := Symbol (char_of c).
Lemma num1 c : is_digit c = true -> numeral [c] (N.to_nat (c - 48)).
Proof. intros H. split; [repeat constructor; exact H|]. split; [discriminate|]. change (decimal [c]) with (c - 48)%N. split; [|reflexivity]. apply N.lt_le_trans with 64%N; [apply digit_range in H; lia|]. intros G. discriminate G. Qed.
Tactic Notation "rf" uconstr(t) := refine t; try exact I.
Ltac sym := apply w_symbol; unfold ascii_letter; lia.
(* (c[au-x]t | <dog-1> 3):+ {2,3} .? !_ !2 *)
Definition example_pattern : list (list pat) :=
  [[Repeated (Group [[sy 99%N; Class false [Single 97%N; Range 117%N 120%N]; sy 116%N]; [Block (TransDelete 1) (map char_of (str "dog")); Length 3]]) 2 (Some 3); Repeated Dot 0 (Some 1)];
   [Operator OSuperset [sy 95%N; Class true [Single 98%N]]]].
Example C57_pattern_written : writes_expression example_pattern [WordEnds; Fuzz 2] (str " (c[au-x]t |<dog-1>3){2,3} .?|(_ [^b]:+) !_ !2").
Proof.
  rf (we_intro (str " ") _ (str "(c[au-x]t |<dog-1>3){2,3} .?|(_ [^b]:+) ") _ (str "!_ !2") _ _ _); [repeat constructor| |].
  2:{ rf (wo_ends (str " ") _ (str "!2") _ (wo_fuzz (str "2") 2 [] [] [] _ _ wo_nil)); [repeat constructor| |constructor]. exact (num1 50%N eq_refl). }
  rf (wb_more _ (str "(c[au-x]t |<dog-1>3){2,3} .?") [] _ (str "(_ [^b]:+) ") _ (Forall_nil _) (wb_one _ _ _)).
  - rf (wp_more _ (str "(c[au-x]t |<dog-1>3){2,3}") (str " ") _ (str ".?") _ _ _ (wp_one _ (str ".?") [] _ (Forall_nil _))); [|repeat constructor|].
    + rf (w_repeated _ (str "(c[au-x]t |<dog-1>3)") [] 2 (Some 3) (str "{2,3}") _ _ (Forall_nil _) _); [|exact (wr_between (str "2") 2 (str "3") 3 (num1 50%N eq_refl) (num1 51%N eq_refl))].
      rf (w_group _ [] (str "c[au-x]t |<dog-1>3") (Forall_nil _) _).
      rf (wb_more _ (str "c[au-x]t ") [] _ (str "<dog-1>3") _ (Forall_nil _) (wb_one _ _ _)).
      * rf (wp_more _ (str "c") [] _ (str "[au-x]t ") _ (Forall_nil _) _ (wp_more _ (str "[au-x]") [] _ (str "t ") _ (Forall_nil _) _ (wp_one _ (str "t") (str " ") _ _))); [sym| |sym|repeat constructor].
        rf (w_class [Single 97%N; Range 117%N 120%N] [str "a"; str "u-x"] _ _); [|discriminate]. constructor; [apply wi_single|constructor; [apply wi_range|constructor]]; unfold ascii_letter; lia.
      * rf (wp_more _ (str "<dog-1>") [] _ (str "3") _ (Forall_nil _) _ (wp_one _ (str "3") [] (w_length (str "3") 3 (num1 51%N eq_refl)) (Forall_nil _))).
        rf (w_block _ (str "dog") (str "-1>") _ _ (wk_delete 3 (str "1") 1 (num1 49%N eq_refl))); [|discriminate]. change (str "dog") with [100; 111; 103]%N; repeat apply Forall_cons; try apply Forall_nil; unfold ascii_letter; lia.
    + exact (w_repeated Dot (str ".") [] 0 (Some 1) (str "?") w_dot I (Forall_nil _) wr_optional).
  - rf (wp_one _ (str "(_ [^b]:+)") (str " ") _ _); [|repeat constructor].
    rf (w_operator OSuperset _ [] (str "_ [^b]") (Forall_nil _) (wp_more _ (str "_") (str " ") _ (str "[^b]") _ _ _ (wp_one _ (str "[^b]") [] _ (Forall_nil _))) _); [sym|repeat constructor| |repeat constructor].
    rf (w_negated [Single 98%N] [str "b"] _ _ _); [|discriminate|]; constructor; try constructor; try (apply wi_single); unfold ascii_letter; lia.
Qed.
Example C57_pattern_value : means (Group example_pattern) [2; 0; 19; 6; 14; 0; 1; 2; 27; 25].
Proof.
  eexists. split; [left; reflexivity|]. exists [2; 0; 19; 6; 14; 0; 1; 2; 27], [25]. split; [reflexivity|]. split.
  - exists 2. split; [lia|]. split; [intros m [= <-]; lia|]. exists [2; 0; 19], [6; 14; 0; 1; 2; 27]. split; [reflexivity|]. split; [|exists [6; 14; 0; 1; 2; 27], []; split; [reflexivity|split; [|reflexivity]]].
    + eexists. split; [left; reflexivity|]. exists [2], [0; 19]. split; [reflexivity|]. split; [reflexivity|]. exists [0], [19]. split; [reflexivity|]. split.
      * exists 0. split; [reflexivity|]. exists (Single 97%N). split; [left; reflexivity|reflexivity].
      * exists [19], []. split; [reflexivity|]. split; reflexivity.
    + eexists. split; [right; left; reflexivity|]. exists [6; 14], [0; 1; 2; 27]. split; [reflexivity|]. split.
      * exists [3]. split; [|reflexivity]. change (map char_of (str "dog")) with [3; 14; 6]. change ([6; 14] ++ [3]) with (rev [3; 14; 6]). apply Permutation.Permutation_rev.
      * exists [0; 1; 2; 27], []. split; [reflexivity|]. split; [|reflexivity]. exists [0; 1; 2]. split; [reflexivity|]. split; [reflexivity|]. repeat constructor; unfold letter; lia.
  - exists [25], []. split; [reflexivity|]. split; [|reflexivity]. exists 1. split; [lia|]. split; [intros m [= <-]; lia|]. exists [25], []. split; [reflexivity|]. split; [|reflexivity]. exists 25. split; [reflexivity|unfold letter; lia].
Qed.
Example C57_query_written : writes_query [Pattern [[Dot; Repeated (sy 97%N) 0 None]] [Punctuation]; MaxWords 3; Blank; Pattern [[Length 2]] []] (str ".a*!';#words 3;;2") /\
  Forall (fun p => plain_pattern (fst p) = true) (patterns [Pattern [[Dot; Repeated (sy 97%N) 0 None]] [Punctuation]; MaxWords 3; Blank; Pattern [[Length 2]] []]).
Proof.
  split.
  - rf (wq_more _ (str ".a*!'") 59%N _ (str "#words 3;;2") _ (or_intror eq_refl) (wq_more _ (str "#words 3") 59%N _ (str ";2") _ (or_intror eq_refl) (wq_more _ [] 59%N _ (str "2") (wl_blank [] (Forall_nil _)) (or_intror eq_refl) (wq_one _ _ _)))).
    + apply wl_pattern. rf (we_intro [] _ (str ".a*") _ (str "!'") (Forall_nil _) (wb_one _ _ _) (wo_punct [] [] [] (Forall_nil _) wo_nil)).
      rf (wp_more _ (str ".") [] _ (str "a*") w_dot (Forall_nil _) _ (wp_one _ (str "a*") [] (w_repeated _ (str "a") [] 0 None (str "*") _ _ (Forall_nil _) wr_any) (Forall_nil _))). sym.
    + exact (wl_words [] (str "#words") (str " ") (str "3") 3 [] (Forall_nil _) eq_refl (Forall_cons _ eq_refl (Forall_nil _)) (num1 51%N eq_refl) (Forall_nil _)).
    + apply wl_pattern. exact (we_intro [] _ (str "2") _ [] (Forall_nil _) (wb_one _ _ (wp_one _ (str "2") [] (w_length (str "2") 2 (num1 50%N eq_refl)) (Forall_nil _))) wo_nil).
  - cbn [patterns]. repeat constructor; cbn [fst]; unfold plain_pattern; apply andb_true_iff; (split; [reflexivity|apply Nat.ltb_lt; cbn; lia]).
Qed.
(** Alternatives: [(ca*t|d.g)s?] *)
Definition example_alternatives : list line :=
  [Pattern [[Group [[sy 99%N; Repeated (sy 97%N) 0 None; sy 116%N]; [sy 100%N; Dot; sy 103%N]]; Repeated (sy 115%N) 0 (Some 1)]] []].
Example C57_alternatives_written : writes_query example_alternatives (str "(ca*t|d.g)s?") /\
  Forall (fun p => plain_pattern (fst p) = true) (patterns example_alternatives).
Proof.
  split.
  - apply wq_one. apply wl_pattern. rf (we_intro [] _ (str "(ca*t|d.g)s?") _ [] (Forall_nil _) (wb_one _ _ _) wo_nil).
    rf (wp_more _ (str "(ca*t|d.g)") [] _ (str "s?") _ (Forall_nil _) _ (wp_one _ (str "s?") [] (w_repeated _ (str "s") [] 0 (Some 1) (str "?") _ _ (Forall_nil _) wr_optional) (Forall_nil _))); [|sym].
    rf (w_group _ [] (str "ca*t|d.g") (Forall_nil _) _). rf (wb_more _ (str "ca*t") [] _ (str "d.g") _ (Forall_nil _) (wb_one _ _ _)).
    + rf (wp_more _ (str "c") [] _ (str "a*t") _ (Forall_nil _) _ (wp_more _ (str "a*") [] _ (str "t") (w_repeated _ (str "a") [] 0 None (str "*") _ _ (Forall_nil _) wr_any) (Forall_nil _) _ (wp_one _ (str "t") [] _ (Forall_nil _)))); sym.
    + rf (wp_more _ (str "d") [] _ (str ".g") _ (Forall_nil _) _ (wp_more _ (str ".") [] _ (str "g") w_dot (Forall_nil _) _ (wp_one _ (str "g") [] _ (Forall_nil _)))); sym.
  - cbn [example_alternatives patterns]. repeat constructor; cbn [fst]; unfold plain_pattern; apply andb_true_iff; (split; [reflexivity|apply Nat.ltb_lt; cbn; lia]).
Qed.
(** Groups: [c(ba?n){2,3}(d|.g)] *)
Definition example_groups : list line :=
  [Pattern [[sy 99%N; Repeated (Group [[sy 98%N; Repeated (sy 97%N) 0 (Some 1); sy 110%N]]) 2 (Some 3); Group [[sy 100%N]; [Dot; sy 103%N]]]] []].
Example C57_groups_written : writes_query example_groups (str "c(ba?n){2,3}(d|.g)") /\
  Forall (fun p => plain_pattern (fst p) = true) (patterns example_groups).
Proof.
  split.
  - apply wq_one. apply wl_pattern. rf (we_intro [] _ (str "c(ba?n){2,3}(d|.g)") _ [] (Forall_nil _) (wb_one _ _ _) wo_nil).
    rf (wp_more _ (str "c") [] _ (str "(ba?n){2,3}(d|.g)") _ (Forall_nil _) _ (wp_more _ (str "(ba?n){2,3}") [] _ (str "(d|.g)") _ (Forall_nil _) _ (wp_one _ (str "(d|.g)") [] _ (Forall_nil _)))); [sym| |].
    + rf (w_repeated _ (str "(ba?n)") [] 2 (Some 3) (str "{2,3}") _ _ (Forall_nil _) _); [|exact (wr_between (str "2") 2 (str "3") 3 (num1 50%N eq_refl) (num1 51%N eq_refl))].
      rf (w_group _ [] (str "ba?n") (Forall_nil _) (wb_one _ _ _)).
      rf (wp_more _ (str "b") [] _ (str "a?n") _ (Forall_nil _) _ (wp_more _ (str "a?") [] _ (str "n") (w_repeated _ (str "a") [] 0 (Some 1) (str "?") _ _ (Forall_nil _) wr_optional) (Forall_nil _) _ (wp_one _ (str "n") [] _ (Forall_nil _)))); sym.
    + rf (w_group _ [] (str "d|.g") (Forall_nil _) (wb_more _ (str "d") [] _ (str ".g") _ (Forall_nil _) (wb_one _ _ _))).
      * rf (wp_one _ (str "d") [] _ (Forall_nil _)). sym.
      * rf (wp_more _ (str ".") [] _ (str "g") w_dot (Forall_nil _) _ (wp_one _ (str "g") [] _ (Forall_nil _))). sym.
  - cbn [example_groups patterns]. repeat constructor; cbn [fst]; unfold plain_pattern; apply andb_true_iff; (split; [reflexivity|apply Nat.ltb_lt; cbn; lia]).
Qed.
(** Runs: [c(at[sz]:^).] *)
Definition example_runs : list line :=
  [Pattern [[sy 99%N; Operator OSubstring [sy 97%N; sy 116%N; Class false [Single 115%N; Single 122%N]]; Dot]] []].
Example C57_runs_written : writes_query example_runs (str "c(at[sz]:^).") /\
  Forall (fun p => plain_pattern (fst p) = true) (patterns example_runs).
Proof.
  split.
  - apply wq_one. apply wl_pattern. rf (we_intro [] _ (str "c(at[sz]:^).") _ [] (Forall_nil _) (wb_one _ _ _) wo_nil).
    rf (wp_more _ (str "c") [] _ (str "(at[sz]:^).") _ (Forall_nil _) _ (wp_more _ (str "(at[sz]:^)") [] _ (str ".") _ (Forall_nil _) _ (wp_one _ (str ".") [] w_dot (Forall_nil _)))); [sym|].
    rf (w_operator OSubstring _ [] (str "at[sz]") (Forall_nil _) _ _); [|repeat constructor].
    rf (wp_more _ (str "a") [] _ (str "t[sz]") _ (Forall_nil _) _ (wp_more _ (str "t") [] _ (str "[sz]") _ (Forall_nil _) _ (wp_one _ (str "[sz]") [] _ (Forall_nil _)))); [sym|sym|].
    rf (w_class _ [str "s"; str "z"] _ _); [|discriminate]. repeat constructor; unfold ascii_letter; lia.
  - cbn [example_runs patterns]. repeat constructor; cbn [fst]; unfold plain_pattern; apply andb_true_iff; (split; [reflexivity|apply Nat.ltb_lt; cbn; lia]).
Qed.
(** A group repeated without bound: [x(cat|.g)+y] *)
Definition example_ring : list line :=
  [Pattern [[sy 120%N; Repeated (Group [[sy 99%N; sy 97%N; sy 116%N]; [Dot; sy 103%N]]) 1 None; sy 121%N]] []].
Example C57_ring_written : writes_query example_ring (str "x(cat|.g)+y") /\
  Forall (fun p => plain_pattern (fst p) = true) (patterns example_ring) /\
  Forall (fun p => branched (Group (fst p)) = false /\ strung (Group (fst p)) = false) (patterns example_ring).
Proof.
  split; [|split].
  - apply wq_one. apply wl_pattern. rf (we_intro [] _ (str "x(cat|.g)+y") _ [] (Forall_nil _) (wb_one _ _ _) wo_nil).
    rf (wp_more _ (str "x") [] _ (str "(cat|.g)+y") _ (Forall_nil _) _ (wp_more _ (str "(cat|.g)+") [] _ (str "y") _ (Forall_nil _) _ (wp_one _ (str "y") [] _ (Forall_nil _)))); [sym| |sym].
    rf (w_repeated _ (str "(cat|.g)") [] 1 None (str "+") _ _ (Forall_nil _) wr_some).
    rf (w_group _ [] (str "cat|.g") (Forall_nil _) (wb_more _ (str "cat") [] _ (str ".g") _ (Forall_nil _) (wb_one _ _ _))).
    + rf (wp_more _ (str "c") [] _ (str "at") _ (Forall_nil _) _ (wp_more _ (str "a") [] _ (str "t") _ (Forall_nil _) _ (wp_one _ (str "t") [] _ (Forall_nil _)))); sym.
    + rf (wp_more _ (str ".") [] _ (str "g") w_dot (Forall_nil _) _ (wp_one _ (str "g") [] _ (Forall_nil _))). sym.
  - cbn [example_ring patterns]. repeat constructor; cbn [fst]; unfold plain_pattern; apply andb_true_iff; (split; [reflexivity|apply Nat.ltb_lt; cbn; lia]).
  - repeat constructor.
Qed.
(** Both kinds: [(d|.g)c(at:^)] *)
Definition example_stitched : list line :=
  [Pattern [[Group [[sy 100%N]; [Dot; sy 103%N]]; sy 99%N; Operator OSubstring [sy 97%N; sy 116%N]]] []].
Example C57_stitched_written : writes_query example_stitched (str "(d|.g)c(at:^)") /\
  Forall (fun p => plain_pattern (fst p) = true) (patterns example_stitched) /\
  Forall (fun p => branched (Group (fst p)) = false /\ strung (Group (fst p)) = false) (patterns example_stitched).
Proof.
  split; [|split].
  - apply wq_one. apply wl_pattern. rf (we_intro [] _ (str "(d|.g)c(at:^)") _ [] (Forall_nil _) (wb_one _ _ _) wo_nil).
    rf (wp_more _ (str "(d|.g)") [] _ (str "c(at:^)") _ (Forall_nil _) _ (wp_more _ (str "c") [] _ (str "(at:^)") _ (Forall_nil _) _ (wp_one _ (str "(at:^)") [] _ (Forall_nil _)))); [|sym|].
    + rf (w_group _ [] (str "d|.g") (Forall_nil _) (wb_more _ (str "d") [] _ (str ".g") _ (Forall_nil _) (wb_one _ _ _))).
      * rf (wp_one _ (str "d") [] _ (Forall_nil _)). sym.
      * rf (wp_more _ (str ".") [] _ (str "g") w_dot (Forall_nil _) _ (wp_one _ (str "g") [] _ (Forall_nil _))). sym.
    + rf (w_operator OSubstring _ [] (str "at") (Forall_nil _) _ _); [|repeat constructor].
      rf (wp_more _ (str "a") [] _ (str "t") _ (Forall_nil _) _ (wp_one _ (str "t") [] _ (Forall_nil _))); sym.
  - cbn [example_stitched patterns]. repeat constructor; cbn [fst]; unfold plain_pattern; apply andb_true_iff; (split; [reflexivity|apply Nat.ltb_lt; cbn; lia]).
  - repeat constructor.
Qed.
