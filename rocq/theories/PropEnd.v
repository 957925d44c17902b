(** Property C65: from the text of a query to the phrases reported, for the queries of
    [EndSpec.good_query]: patterns of symbols, classes, dots, numbers, alternatives that end in a symbol,
    repeated symbols and groups repeated a limited number of times; or one anagram block between parts of fixed length.
    The text may have comments, macros, pragmas and a wordlist of its own ([Script.writes_script]). *)
From Coq Require Import String Lia.
From Verif Require Import EndProofs PropApps PropSyntax PropScript.
From Verif Require Import Syntax EndSpec.
Local Open Scope list_scope.

(** The command-line tool prints the answer, a phrase on a line, as far as it is asked to. Missing: the
    other patterns, for many of which it is false (see PropNfa); and the phrases of a search whose
    optimiser gives up after 100 passes (for which see PropGiveUp). *)
Theorem C65_command_line_partial : forall ovf u ls own t ws n, good_query u ls own t -> sorted_words ws ->
  exists full, answer ovf u ls t (given_or own ws) n full /\
  forall count lines, (exists fuel k, cli ovf u fuel k count n t ws = Ok lines) <->
    Forall2 AppsSpec.spaced (match count with Some c => firstn c full | None => full end) lines.
Proof. exact end_cli. Qed.
Print Assumptions C65_command_line_partial.

(** A server answers the same query the same way over HTTP and in websocket sessions. *)
Theorem C65_server_partial : forall s ls own t ws, in_order s -> good_query (sv_unicode s) ls own t -> its_words (sv_lists s) ls ws ->
  exists full, answer (sv_ovf s) (sv_unicode s) ls t (given_or own ws) (longest ls) full /\ (forall pt, http_right s ls t full pt) /\
    forall c, first_message c = Some (Some t) -> socket_right s ls t full c.
Proof. exact end_server. Qed.
Print Assumptions C65_server_partial.

(** ** Examples *)
Definition C65_lines : list line :=
  [Pattern [[sy 120%N; Block Standard (map char_of (str "ab")); Class false [Single 99%N; Single 100%N]]] []; MaxWords 2; Pattern [[Repeated Dot 0 None; sy 99%N]] []].
Definition C65_text : text := str "x<ab>[cd];#words 2;.*c".
Example C65_good_query : forall u, good_query u C65_lines None C65_text.
Proof.
  intros u. constructor; [apply query_script|discriminate|].
  - rf (wq_more _ (str "x<ab>[cd]") 59%N _ (str "#words 2;.*c") _ (or_intror eq_refl) (wq_more _ (str "#words 2") 59%N _ (str ".*c") (wl_words [] (str "#words") (str " ") (str "2") 2 [] (Forall_nil _) eq_refl (Forall_cons _ eq_refl (Forall_nil _)) (num1 50%N eq_refl) (Forall_nil _)) (or_intror eq_refl) (wq_one _ _ _))); apply wl_pattern.
    + rf (we_intro [] _ (str "x<ab>[cd]") _ [] (Forall_nil _) (wb_one _ _ _) wo_nil).
      rf (wp_more _ (str "x") [] _ (str "<ab>[cd]") _ (Forall_nil _) _ (wp_more _ (str "<ab>") [] _ (str "[cd]") _ (Forall_nil _) _ (wp_one _ (str "[cd]") [] _ (Forall_nil _)))); [sym| |].
      * rf (w_block Standard (str "ab") (str ">") _ _ (wk_plain 2)); [|discriminate]. change (str "ab") with [97; 98]%N; repeat apply Forall_cons; try apply Forall_nil; unfold ascii_letter; lia.
      * rf (w_class [Single 99%N; Single 100%N] [str "c"; str "d"] _ _); [|discriminate]. repeat (constructor; [apply wi_single; unfold ascii_letter; lia|]). constructor.
    + rf (we_intro [] _ (str ".*c") _ [] (Forall_nil _) (wb_one _ _ _) wo_nil).
      rf (wp_more _ (str ".*") [] _ (str "c") (w_repeated Dot (str ".") [] 0 None (str "*") w_dot _ (Forall_nil _) wr_any) (Forall_nil _) _ (wp_one _ (str "c") [] _ (Forall_nil _))). sym.
  - cbn [C65_lines patterns]. constructor; [right|constructor; [left|constructor]].
    + exists [sy 120%N], Standard, (map char_of (str "ab")), [Class false [Single 99%N; Single 100%N]], 1, 1. cbn [fst snd]. split; [reflexivity|]. split; [reflexivity|]. split; [reflexivity|]. split; [reflexivity|]. split.
      { apply Nat.ltb_lt. vm_compute. reflexivity. }
      split; [discriminate|]. split; [intros []|].
      intros H. inversion H as [| | | |bs b p Hb Hp Hs| |]; subst. destruct Hb as [<-|[]]. destruct Hp as [<-|[<-|[<-|[]]]]; inversion Hs as [| |items Hc| | | |]; subst.
      destruct Hc as (i & [<-|[<-|[]]] & Hi); discriminate Hi.
    + unfold plain_pattern; apply andb_true_iff; (split; [reflexivity|apply Nat.ltb_lt; cbn; lia]).
Qed.
Definition C65_words : list word := map text_word [str "bc"; str "c"; str "xa"; str "xab"; str "xabc"; str "xabd"; str "xbac"].
Example C65_words_sorted : sorted_words C65_words.
Proof. apply sorted_b_ok. vm_compute. reflexivity. Qed.
(** With at most two words; the search does not give up. *)
Example C65_command_line_value : forall u, cli true u 100 100 None 2 C65_text C65_words = Ok [str "xabc"; str "xbac"; str "xa bc"; str "xab c"].
Proof. intros u. vm_compute. reflexivity. Qed.
Example C65_no_give_up : forall u, ~ search_gives_up true u C65_text C65_words 2.
Proof.
  intros u (q & exs & Hq & E & G). revert G.
  assert (Hc : compiled_all (q_expressions q) exs). { apply (AppsProofs.mapM_compiled true); [|exact E]. vm_compute in Hq. injection Hq as <-. discriminate. }
  apply (C29_small_queries_never_give_up _ _ _ 2 Hc C65_words_sorted). vm_compute in Hq. injection Hq as <-. vm_compute in E. injection E as <-. apply Nat.leb_le. vm_compute. reflexivity.
Qed.
Example C65_its_words : forall u, in_order (sample_server u) /\ its_words (sv_lists (sample_server u)) C65_lines (map text_word [str "a"; str "ab"; str "abc"; str "b"; str "c"]).
Proof. intros u. destruct (C47_hypotheses_met u) as (q & d & rs & b & H & _). split; [exact H|left; reflexivity]. Qed.
(** A query with a macro, comments and words of its own. *)
Example C65_script_good : forall u, exists ws, Permutation.Permutation ws (C57_script_words u) /\ good_query u C57_script_lines (Some ws) C57_script.
Proof.
  intros u. destruct (C57_script_written u) as (ws & HP & H). exists ws. split; [exact HP|]. constructor; [exact H|discriminate|]. cbn [C57_script_lines patterns]. constructor; [left|constructor]. unfold plain_pattern; apply andb_true_iff; (split; [reflexivity|apply Nat.ltb_lt; cbn; lia]).
Qed.
