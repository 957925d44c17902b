(** Properties C59-C64: the page and what the server says about itself. *)
From Coq Require Import String ZArith Permutation Sorted.
From Verif Require Import LinesProofs DictProofs ParserProofs PropApps PropPanic PageProofs PageTextProofs PageServerProofs WordsProofs PageSpec.
Local Open Scope list_scope.

(** ** C59: the list of results *)
(** For every history of a page there is exactly one list of matches that have arrived. *)
Theorem C59_arrived : forall es, exists o ms, arrived es o ms /\ forall o' ms', arrived es o' ms' -> o' = o /\ ms' = ms.
Proof. exact arrived_unique. Qed.
Print Assumptions C59_arrived.
(** Whatever the user has done: every match that has arrived and passes the filter is shown, once, and
    nothing else; if the box is ticked, sorted by score. (While the filter is not a regular expression,
    the list is not updated.) *)
Theorem C59_shows_what_passes : forall b es o ms, arrived es o ms -> filter_works b (after b es) ->
  Permutation (shown (after b es)) (filter (passes b (after b es)) ms) /\
  (sort_checked (after b es) = true -> by_score b (filter (passes b (after b es)) ms) (shown (after b es))).
Proof. exact arrived_shown. Qed.
Print Assumptions C59_shows_what_passes.
(** In the order of arrival, unless the box has been ticked and not been unticked by the user. *)
Theorem C59_arrival_order_partial : forall b es o ms, arrived es o ms -> unsorted es -> filter_works b (after b es) -> shown (after b es) = filter (passes b (after b es)) ms.
Proof. exact never_shown. Qed.
Print Assumptions C59_arrival_order_partial.
(** An unticked box does not mean order of arrival: a new match unticks it, the others stay where they are. *)
Definition by_length : browser := mkBrowser (fun p => Z.of_nat (length (full_text p))) (fun t => match t with [] => None | c :: _ => Some (fun x => existsb (N.eqb c) x) end).
Definition one_word (t : text) : list word := [text_word t].
Definition longest_first : list event :=
  [Submit; Opened; Message SRunning; Message (SMatch (one_word (str "abc"))); Message (SMatch (one_word (str "ab"))); SetSort true; Message (SMatch (one_word (str "abcd")))].
Theorem C59_unticked_refuted : exists b es o ms, arrived es o ms /\ filter_works b (after b es) /\ filter_checked (after b es) = false /\ sort_checked (after b es) = false /\ shown (after b es) <> ms.
Proof.
  exists by_length, longest_first. destruct (C59_arrived longest_first) as (o & ms & H & _). exists o, ms. split; [exact H|]. split; [intros E; discriminate E|]. split; [reflexivity|]. split; [reflexivity|].
  intros E. assert (Hu : unsorted (longest_first ++ [SetSort false])).
  { intros x y Exy. apply (f_equal (@rev event)) in Exy. rewrite rev_app_distr in Exy. cbn [rev] in Exy. rewrite rev_app_distr in Exy. cbn [rev app] in Exy. destruct (rev y) as [|e z] eqn:Er; [discriminate Exy|]. cbn [app] in Exy. injection Exy as He _. right. apply in_rev. rewrite Er. left. symmetry. exact He. }
  assert (Ha : arrived (longest_first ++ [SetSort false]) o ms) by (apply arrived_else; [exact H|discriminate|discriminate|intros; discriminate]).
  assert (Hf : filter_works by_length (after by_length (longest_first ++ [SetSort false]))) by (intros X; discriminate X).
  pose proof (C59_arrival_order_partial by_length _ _ _ Ha Hu Hf) as G.
  assert (K : filter (passes by_length (after by_length (longest_first ++ [SetSort false]))) ms = ms) by (apply filter_id; reflexivity). rewrite K, <- E in G. vm_compute in G. discriminate G.
Qed.
Print Assumptions C59_unticked_refuted.
(** With a filter: "c" lets two of the three matches pass; they are shown by score. *)
Example C59_witness : let es := longest_first ++ [SetSort true; TypeFilter (str "c")] in let p := after by_length es in
  filter_works by_length p /\ sort_checked p = true /\ shown p = [one_word (str "abc"); one_word (str "abcd")].
Proof. split; [intros _ E; discriminate E|]. split; vm_compute; reflexivity. Qed.
(** The text of a match. *)
Theorem C59_text_shown : forall p, p <> [] -> shown_as p (full_text p).
Proof. exact shown_text. Qed.
Print Assumptions C59_text_shown.
(** The white space of JavaScript. *)
Theorem C59_white_space : forall c, js_white c = true <->
  In c [9; 10; 11; 12; 13; 32; 160; 5760; 8192; 8193; 8194; 8195; 8196; 8197; 8198; 8199; 8200; 8201; 8202; 8232; 8233; 8239; 8287; 12288; 65279]%N.
Proof. exact js_white_listed. Qed.
Print Assumptions C59_white_space.
(** Until a query is submitted no matches, no status and no log lines are shown, whatever else is done. *)
Theorem C59_nothing_before_a_query : forall b es, ~ In Submit es ->
  output (after b es) = [] /\ status (after b es) = NoStatus /\ log_lines_shown (after b es) = [].
Proof. intros b es H. apply (page_untouched b es H). Qed.
Print Assumptions C59_nothing_before_a_query.
Example C59_nothing_before_met : ~ In Submit [Stop; Opened; Message (SMatch []); SetFilter true; CopyWordlist].
Proof. cbn [In]. intuition discriminate. Qed.

(** ** C60: what the page asks *)
(** The expressions are those of the input field. Its settings win over the form; a number above 64 bits
    counts as none. Errors are numbered with the three lines of the form. *)
Theorem C60_page_query : forall u dict w l nw nl input custom, Forall name_char dict -> dict <> [] -> form_number w nw -> form_number l nl ->
  match parse_query u input with
  | Ok (Parsed q) => wordlist (q_options q) = None -> (custom <> [] -> forall k v, In (k, v) (macros q) -> forall p r, str "#wordlist" <> p ++ k ++ r) ->
      exists q', parse_query u (input_text dict w l input custom) = Ok (Parsed q') /\ macros q' = macros q /\ q_expressions q' = q_expressions q /\
        or_form nw (max_words (q_options q)) (max_words (q_options q')) /\ or_form dict (dictionary (q_options q)) (dictionary (q_options q')) /\ or_form nl (Parser.results_limit (q_options q)) (Parser.results_limit (q_options q')) /\
        (custom = [] -> wordlist (q_options q') = None) /\
        (custom <> [] -> exists wl ws, wordlist (q_options q') = Some wl /\ listed_words u (line_count input + 4) (split_lines custom) ws /\ Permutation wl ws /\ Sorted word_le wl)
  | Ok (ParseError n) => parse_query u (input_text dict w l input custom) = Ok (ParseError (n + 3))
  | o => parse_query u (input_text dict w l input custom) = o
  end.
Proof. exact page_query. Qed.
Print Assumptions C60_page_query.

(** The settings exactly, if every number in the input field is below 2^64 (macros replaced). *)
Theorem C60_settings : forall u dict w l nw nl input custom q q', Forall name_char dict -> dict <> [] -> form_number w nw -> form_number l nl ->
  (forall p l, line_at input p l -> forall q l', parse_query u p = Ok (Parsed q) -> wordlist (q_options q) = None -> expanded (macros q) l l' -> numbers_fit l') ->
  parse_query u input = Ok (Parsed q) -> wordlist (q_options q) = None -> (custom <> [] -> forall k v, In (k, v) (macros q) -> forall p r, str "#wordlist" <> p ++ k ++ r) ->
  parse_query u (input_text dict w l input custom) = Ok (Parsed q') ->
  max_words (q_options q') = Some (given_or (max_words (q_options q)) nw) /\ dictionary (q_options q') = Some (given_or (dictionary (q_options q)) dict) /\
  Parser.results_limit (q_options q') = Some (given_or (Parser.results_limit (q_options q)) nl).
Proof.
  intros u dict w l nw nl input custom q q' H1 H2 H3 H4 Hf. apply page_settings; [exact H1|exact H2|exact H3|exact H4|].
  intros p l0 r q0 l' E Hp Hl Hr. apply (Hf p l0). exists r. auto.
Qed.
Print Assumptions C60_settings.
Example C60_witness : forall u, exists q q', form_number (str "3") 3 /\ form_number (str "50") 50 /\ parse_query u (str "#words 2;ab*;(c|d)") = Ok (Parsed q) /\
  parse_query u (input_text (str "scrabble") (str "3") (str "50") (str "#words 2;ab*;(c|d)") ([10%N] ++ str " abb" ++ [10%N])) = Ok (Parsed q') /\
  max_words (q_options q') = Some 2 /\ Parser.results_limit (q_options q') = Some 50 /\ dictionary (q_options q') = Some (str "scrabble") /\ length (q_expressions q') = 2 /\
  option_map (map w_text) (wordlist (q_options q')) = Some [str "abb"].
Proof.
  intros u. do 2 eexists. do 2 (split; [split; [repeat constructor|]; split; [discriminate|]; split; vm_compute; reflexivity|]). split; [vm_compute; reflexivity|]. split; [vm_compute; reflexivity|]. repeat split; vm_compute; reflexivity.
Qed.
(** The line number of an error is not the one in the input field. *)
Theorem C60_error_line_refuted : forall u dict w l nw nl input custom n, Forall name_char dict -> dict <> [] -> form_number w nw -> form_number l nl ->
  parse_query u input = Ok (ParseError n) -> exists m, parse_query u (input_text dict w l input custom) = Ok (ParseError m) /\ m <> n.
Proof. intros u dict w l nw nl input custom n H1 H2 H3 H4 E. pose proof (C60_page_query u dict w l nw nl input custom H1 H2 H3 H4) as H. rewrite E in H. exists (n + 3). split; [exact H|lia]. Qed.
Print Assumptions C60_error_line_refuted.
(** With the wordlist npl-allwords2 in the form every query is an error, whatever the input. *)
Theorem C60_hyphen_refuted : forall u w l input custom, parse_query u (input_text (str "npl-allwords2") w l input custom) = Ok (ParseError 1).
Proof.
  intros u w l input custom. rewrite parse_query_eq. unfold input_text. rewrite (app_assoc (str "#dict ")), split_app by (left; reflexivity).
  rewrite (split_one (str "#dict " ++ str "npl-allwords2")); [|apply one_line_app; split; apply one_str; reflexivity]. cbn [app parse_query_lines].
  assert (E : parse_query_line u no_query 0 (str "#dict " ++ str "npl-allwords2") = Ok (ParseError 1)) by (vm_compute; reflexivity). change (str "#dict " ++ str "npl-allwords2") with (str "#dict npl-allwords2") in *. rewrite E. reflexivity.
Qed.
Print Assumptions C60_hyphen_refuted.
(** A macro can change the line that introduces the custom word list. *)
Theorem C60_macro_refuted : forall u, exists dict w l input custom q, Forall name_char dict /\ form_number w 3 /\ form_number l 50 /\ parse_query u input = Ok (Parsed q) /\ wordlist (q_options q) = None /\
  parse_query u (input_text dict w l input custom) = Ok (ParseError 6).
Proof.
  intros u. exists (str "scrabble"), (str "3"), (str "50"), (str "w=[aeiou];w"), (str "abb"). eexists. split; [change (str "scrabble") with [115; 99; 114; 97; 98; 98; 108; 101]%N; repeat constructor|].
  do 2 (split; [split; [repeat constructor|]; split; [discriminate|]; split; vm_compute; reflexivity|]). split; [vm_compute; reflexivity|]. split; vm_compute; reflexivity.
Qed.
Print Assumptions C60_macro_refuted.

(** ** C61: copying the results into the custom word list *)
(** The list gets the matches shown, one to a line, in the order shown. *)
Theorem C61_copy : forall b es o ms, arrived es o ms -> filter_works b (after b es) -> Forall (fun p => ~ In 10%N (full_text p)) (shown (after b es)) ->
  text_lines (custom_wordlist (after b (es ++ [CopyWordlist]))) (map full_text (shown (after b es))) /\ shown (after b (es ++ [CopyWordlist])) = shown (after b es).
Proof. exact copied. Qed.
Print Assumptions C61_copy.
(** The words of the next query are the texts copied: with C60, what its word list has. *)
Theorem C61_copied_words : forall u b es o ms i ws, arrived es o ms -> filter_works b (after b es) -> Forall (fun p => keeps_its_line (full_text p)) (shown (after b es)) ->
  listed_words u i (split_lines (custom_wordlist (after b (es ++ [CopyWordlist])))) ws -> map w_text ws = map full_text (shown (after b es)).
Proof.
  intros u b es o ms i ws Ha Hw Hk H. assert (Hn : Forall (fun p => ~ In 10%N (full_text p)) (shown (after b es))).
  { eapply Forall_impl; [|exact Hk]. intros p (H1 & _) Hi. unfold one_line in H1. rewrite Forall_forall in H1. apply (H1 _ Hi). left. reflexivity. }
  destruct (copied b es o ms Ha Hw Hn) as [Ht _]. assert (Ho : Forall one_line (map full_text (shown (after b es)))) by (apply Forall_map; eapply Forall_impl; [|exact Hk]; intros p (H1 & _); exact H1).
  rewrite (copied_split _ _ Ht Ho) in H. apply (listed_texts u _) in H; [exact H|]. apply Forall_map. exact Hk.
Qed.
Print Assumptions C61_copied_words.
Example C61_witness : custom_wordlist (after by_length (longest_first ++ [CopyWordlist])) = str "ab" ++ [10%N] ++ str "abc" ++ [10%N] ++ str "abcd" ++ [10%N].
Proof. vm_compute. reflexivity. Qed.

(** ** C62: from the question to the page *)
(** A query is submitted; until now the page has been told the first [k] messages of the session, and it has
    not been stopped. It has the first matches of the answer, in order; all of them once it has been told that
    the search is complete. (What it then shows: C59.) *)
Theorem C62_page_has_matches : forall s c t q dict x rs before during k, in_order s ->
  first_message c = Some (Some t) -> parse_query (sv_unicode s) t = Ok (Parsed q) -> words_for (sv_lists s) q dict ->
  question_of (sv_ovf s) q dict 300 x -> answered x rs ->
  Forall (fun e => e <> Submit /\ e <> Stop) during -> told_page during = firstn k (replies (trace s (Socket c))) ->
  (exists n, arrived (before ++ Submit :: during) true (firstn n (reported rs))) /\
  (forall m, In (SComplete m) (told_page during) -> arrived (before ++ Submit :: during) true (reported rs)).
Proof.
  intros s c t q dict x rs before during k H0 H1 H2 H3 H4 H5 Hd Hk. destruct (C52_websocket_matches s c t q dict x rs H0 H1 H2 H3 H4 H5) as [(n & G1) G2]. pose proof (arrived_session before during Hd) as A. rewrite Hk in *. split.
  - destruct (matches_prefix (replies (trace s (Socket c))) k) as (n' & E). rewrite E, replies_matches, G1, firstn_firstn in A. eauto.
  - intros m Hm. assert (Hin : In (Sent (SComplete m)) (trace s (Socket c))).
    { assert (Hr : In (SComplete m) (replies (trace s (Socket c)))) by (rewrite <- (firstn_skipn k (replies (trace s (Socket c)))); apply in_or_app; left; exact Hm).
      unfold replies in Hr. apply in_flat_map in Hr. destruct Hr as (e & He & Hr). destruct e as [| | |r]; [destruct Hr|destruct Hr|destruct Hr|destruct Hr as [Hr|[]]]. subst. exact He. }
    destruct (G2 m Hin) as (G3 & _). destruct (C52_conversation s c t q dict x rs H0 H1 H2 H3 H4 H5) as (ms & Gt & G).
    assert (Er : replies (trace s (Socket c)) = ms) by (rewrite Gt; apply replies_of; destruct (regular s (Socket c)); auto). 
    assert (Ec : firstn k ms = ms).
    { rewrite Er in Hm. destruct G as [[(j & ->) _]|(ms' & -> & Gtold & _)].
      - exfalso. apply in_firstn, in_firstn in Hm. exact (opening_going q m Hm).
      - apply (complete_last _ rs ms' (opening q) Gtold k m Hm). intros G. exact (opening_going q m G). }
    rewrite Er, Ec, <- Er, replies_matches, G3 in A. exact A.
Qed.
Print Assumptions C62_page_has_matches.
(** The status line shows the last status message of the server. *)
Theorem C62_status : forall b before during, Forall (fun e => e <> Submit /\ e <> Stop /\ e <> Opened) during ->
  status (after b (before ++ Submit :: Opened :: during)) = match rev (filter to_status (told_page during)) with [] => Connected | r :: _ => FromServer r end.
Proof. exact status_shown. Qed.
Print Assumptions C62_status.
(** All together: nobody touches the page after submitting. *)
Theorem C62_page_shows_answer : forall b s c t q dict x rs before k, in_order s ->
  first_message c = Some (Some t) -> parse_query (sv_unicode s) t = Ok (Parsed q) -> words_for (sv_lists s) q dict ->
  question_of (sv_ovf s) q dict 300 x -> answered x rs ->
  let messages := firstn k (replies (trace s (Socket c))) in let p := after b (before ++ Submit :: Opened :: map Message messages) in
  (exists n, shown p = firstn n (reported rs)) /\ (forall m, In (SComplete m) messages -> shown p = reported rs /\ status p = FromServer (SComplete m)).
Proof.
  intros b s c t q dict x rs before k H0 H1 H2 H3 H4 H5 messages p. 
  assert (Ht : told_page (map Message messages) = messages) by (unfold told_page; generalize messages as l; intros l; induction l as [|r l IH]; [reflexivity|]; cbn [map flat_map app]; rewrite IH; reflexivity).
  assert (Hd : Forall (fun e => e <> Submit /\ e <> Stop /\ e <> Opened) (map Message messages)) by (apply Forall_map, Forall_forall; intros r _; repeat split; discriminate).
  assert (Hd' : Forall (fun e => e <> Submit /\ e <> Stop) (Opened :: map Message messages)) by (constructor; [split; discriminate|]; eapply Forall_impl; [|exact Hd]; intros e (G1 & G2 & _); auto).
  assert (Hu : unsorted (before ++ Submit :: Opened :: map Message messages)) by (apply unsorted_messages).
  destruct (C62_page_has_matches s c t q dict x rs before (Opened :: map Message messages) k H0 H1 H2 H3 H4 H5 Hd' Ht) as [(n & A) B].
  assert (Hc : filter_checked p = false) by (apply unfiltered).
  assert (Hw : filter_works b p) by (intros E; congruence).
  assert (Hp : forall l, filter (passes b p) l = l) by (intros l; apply filter_id; intros y; unfold passes; rewrite Hc; reflexivity).
  split; [exists n; pose proof (never_shown b _ _ _ A Hu Hw) as G; fold p in G; rewrite Hp in G; exact G|].
  intros m Hm. change (told_page (Opened :: map Message messages)) with (told_page (map Message messages)) in B. rewrite Ht in B. split; [pose proof (never_shown b _ _ _ (B m Hm) Hu Hw) as G; fold p in G; rewrite Hp in G; exact G|].
  unfold p. rewrite (status_shown b before _ Hd), Ht. destruct (C52_conversation s c t q dict x rs H0 H1 H2 H3 H4 H5) as (ms & Gt & G).
  assert (Er : replies (trace s (Socket c)) = ms) by (rewrite Gt; apply replies_of; destruct (regular s (Socket c)); auto). unfold messages in *. rewrite Er in *. clear Er.
  destruct G as [[(j & ->) _]|(ms' & -> & Gtold & _)]; [exfalso; apply in_firstn, in_firstn in Hm; exact (opening_going q m Hm)|].
  pose proof Hm as Hm0. rewrite (complete_last _ rs ms' (opening q) Gtold k m Hm0 (opening_going q m)) in Hm |- *. apply in_app_or in Hm. destruct Hm as [Hm|Hm]; [destruct (opening_going q m Hm)|].
  destruct (told_end_last _ _ _ Gtold m Hm) as (l & ->). rewrite app_assoc, filter_app, rev_app_distr. reflexivity.
Qed.
Print Assumptions C62_page_shows_answer.
Example C62_witness : forall u, let p := after by_length (Submit :: Opened :: map Message (replies (trace (sample_server u) (Socket sample_client)))) in
  shown p = [[text_word (str "ab")]; [text_word (str "a"); text_word (str "b")]] /\ status p = FromServer (SComplete (AllPhrases 2 10)) /\ map full_text (shown p) = [str "ab"; str "a b"].
Proof. intros u. split; [|split]; vm_compute; reflexivity. Qed.

(** ** C63: the menu of wordlists *)
(** The script the page loads announces every wordlist and its size (names without newlines). *)
Theorem C63_announced : forall lists, Forall (fun l => ~ In 10%N (fst l)) lists ->
  exists ls, text_lines (get_wordlist_js lists) (str "window.WORDLISTS = [];" :: ls) /\ Forall2 announces lists ls.
Proof. exact script_lines. Qed.
Print Assumptions C63_announced.
(** The menu has each of them once, longer lists first. *)
Theorem C63_menu : forall lists, Permutation (menu lists) lists /\ StronglySorted (fun a b => snd b <= snd a) (menu lists).
Proof. intros lists. split; [apply menu_perm|apply menu_sorted]. Qed.
Print Assumptions C63_menu.
(** At first "default" is selected; without it, a longest list. *)
Theorem C63_selected : forall lists, match selected lists with
  | None => lists = []
  | Some name => (In (str "default") (map fst lists) -> name = str "default") /\
      exists n, In (name, n) lists /\ (~ In (str "default") (map fst lists) -> Forall (fun x => snd x <= n) lists)
  end.
Proof. exact selected_spec. Qed.
Print Assumptions C63_selected.
Example C63_witness : menu [(str "b", 2); (str "a", 5); (str "default", 3)] = [(str "a", 5); (str "default", 3); (str "b", 2)] /\ selected [(str "b", 2); (str "a", 5); (str "default", 3)] = Some (str "default") /\
  selected [(str "b", 2); (str "a", 5)] = Some (str "a") /\ option_text (str "a", 5) = str "a (5)".
Proof. repeat split; vm_compute; reflexivity. Qed.

(** ** C64: the metrics *)
(** At any time of any history the body has, besides comments and blank lines, one line each for the gauge,
    the counter and every wordlist. *)
Theorem C64_metrics : forall s acts ts h, Forall2 (fun a t => exists later, trace s a = t ++ later) acts ts -> interleaved ts h -> Forall (fun l => ~ In 10%N (fst l)) (sv_lists s) ->
  exists active, gauge h = Z.of_nat active /\
  exists ls a t sizes, text_lines (get_metrics active (totals h) (sv_lists s)) ls /\ filter is_sample ls = a :: t :: sizes /\
    sample (str "noodle_queries_active") active a /\ sample (str "noodle_queries_total") (totals h) t /\
    Forall2 (fun l => sample (str "noodle_wordlist_size{wordlist=" ++ quoted (fst l) ++ str "}") (length (snd l))) (sv_lists s) sizes.
Proof.
  intros s acts ts h H Hi Hl. destruct (C46_gauge_at_any_time s acts ts h H Hi) as [G _]. exists (Z.to_nat (gauge h)). split; [lia|]. apply metrics_lines. exact Hl.
Qed.
Print Assumptions C64_metrics.
Example C64_witness : forall u, get_metrics 1 2 (sv_lists (sample_server u)) = concat (map (fun l => l ++ [10%N])
  [str "# HELP noodle_queries_active"; str "# TYPE noodle_queries_active gauge"; str "noodle_queries_active 1"; [];
   str "# HELP noodle_queries_total"; str "# TYPE noodle_queries_total counter"; str "noodle_queries_total 2"; [];
   str "# HELP noodle_wordlist_size"; str "# TYPE noodle_wordlist_size gauge"; str "noodle_wordlist_size{wordlist=" ++ quoted (str "default") ++ str "} 5"]).
Proof. intros u. vm_compute. reflexivity. Qed.
