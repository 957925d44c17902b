(** Properties C43 (defaults), C45-C48 and C52-C54 (the command-line tool and the server). *)
From Coq Require Import String ZArith Permutation.
From Verif Require Import AppsProofs SessionProofs.
Local Open Scope list_scope.

(** ** C43: the defaults *)
Theorem C43_defaults : forall ovf q input ev, evaluator_from_ast ovf q input = Ok ev ->
  exists x, question_of ovf q input 300 x /\ fresh (qu_exprs x) (qu_words x) (qu_length x) (qu_limit x) ev.
Proof.
  intros ovf q input ev H. destruct (evaluator_inv _ _ _ _ H) as (exs & E & _ & Hf). exists (mkQuestion exs (given_or (wordlist (q_options q)) input) (given_or (max_words (q_options q)) 10) (Some (given_or (Parser.results_limit (q_options q)) 300))).
  split; [repeat split; exact E|exact Hf].
Qed.
Print Assumptions C43_defaults.
(** noodle_help.md:50 says 100. *)
Theorem C43_documented_limit_refuted : forall u, exists q input x rs, parse_query u (str "#words 1;a") = Ok (Parsed q) /\
  Parser.results_limit (q_options q) = None /\ question_of true q input 300 x /\ answered x rs /\ 100 < length (reported rs).
Proof.
  intros u. exists (mkQueryAst [] [lit [0]] (mkQueryOptions (Some 1) None None None None)), (repeat (tword 0 [0]) 101), (mkQuestion [compile (lit [0])] (repeat (tword 0 [0]) 101) 1 (Some 300)).
  exists (map RMatch (repeat [tword 0 [0]] 101) ++ [RComplete (AllSingle 101)]). split; [vm_compute; reflexivity|]. split; [reflexivity|].
  split; [split; [vm_compute; reflexivity|repeat split]|]. split; [apply (run_b_ok _ _ _ _ 200 200); vm_compute; reflexivity|]. rewrite matches_app, matches_map, app_length, repeat_length. lia.
Qed.
Print Assumptions C43_documented_limit_refuted.

(** ** C45: pragmas and the command-line tool *)
(** The lines printed: the results for the expressions and words of the query, with the limits of the
    command line. *)
Theorem C45_cli_prints : forall ovf u count len query ws lines,
  (exists fuel k, cli ovf u fuel k count len query ws = Ok lines) <->
  (exists q exs rs, parse_query u query = Ok (Parsed q) /\ mapM (from_ast ovf) (q_expressions q) = Ok exs /\
    query_run exs (given_or (wordlist (q_options q)) ws) len count rs /\ Forall2 spaced (reported rs) lines).
Proof.
  intros ovf u count len query ws lines. split.
  - intros (fuel & k & H). destruct (cli_spec _ _ _ _ _ _ _ _ _ H) as (q & exs & rs & H1 & H2 & _ & H3 & H4). exists q, exs, rs. split; [exact H1|]. split; [exact H2|]. split; [exact H3|]. apply spaced_all; [exact (run_nonempty _ _ _ _ _ H3)|exact H4].
  - intros (q & exs & rs & H1 & H2 & H3 & H4). apply spaced_all in H4; [|exact (run_nonempty _ _ _ _ _ H3)]. subst lines. exact (cli_complete _ _ _ _ _ _ _ _ _ H1 H2 H3).
Qed.
Print Assumptions C45_cli_prints.
(** Whatever a query says besides its expressions and its word list, the tool does not notice. *)
Theorem C45_cli_ignores_pragmas : forall ovf u fuel k count len t1 t2 q1 q2 ws,
  parse_query u t1 = Ok (Parsed q1) -> parse_query u t2 = Ok (Parsed q2) ->
  q_expressions q1 = q_expressions q2 -> wordlist (q_options q1) = wordlist (q_options q2) ->
  cli ovf u fuel k count len t1 ws = cli ovf u fuel k count len t2 ws.
Proof. exact cli_deaf. Qed.
Print Assumptions C45_cli_ignores_pragmas.
Definition text_word (t : text) : word := mkWord 0 (map char_of t ++ [WORD_END]) t 0%N.
(** With the default options; the limit of the query is 1, the number of lines 2. *)
Theorem C45_limit_refuted : forall u, exists q ws fuel k lines, parse_query u (str "#limit 1;a.") = Ok (Parsed q) /\ Parser.results_limit (q_options q) = Some 1 /\
  cli true u fuel k None 10 (str "#limit 1;a.") ws = Ok lines /\ length lines = 2.
Proof. intros u. eexists. exists [text_word (str "ab"); text_word (str "ac")], 100, 100. eexists. split; [vm_compute; reflexivity|]. split; [reflexivity|]. split; [vm_compute; reflexivity|reflexivity]. Qed.
Print Assumptions C45_limit_refuted.
(** The query asks for single words, the tool prints a phrase. *)
Theorem C45_words_refuted : forall u, exists q ws fuel k, parse_query u (str "#words 1;ab") = Ok (Parsed q) /\ max_words (q_options q) = Some 1 /\
  cli true u fuel k None 10 (str "#words 1;ab") ws = Ok [str "a b"].
Proof. intros u. eexists. exists [text_word (str "a"); text_word (str "b")], 100, 100. split; [vm_compute; reflexivity|]. split; [reflexivity|]. vm_compute. reflexivity. Qed.
Print Assumptions C45_words_refuted.

(** ** C46: the active-query gauge *)
Theorem C46_session_gauge : forall s a, gauge (trace s a) = if asked a && negb (regular s a) then 1%Z else 0%Z.
Proof.
  intros s [d t pt|c]; unfold trace, regular, asked.
  - destruct (http_request s d t pt) as [e o] eqn:E. apply http_trace in E. cbn [fst snd]. rewrite E. destruct o; reflexivity.
  - destruct (socket s c) as [t e] eqn:E. apply websocket_trace in E. cbn [fst snd]. destruct E as [(-> & -> & ->)|(Hn & x & Hx & ->)]; [reflexivity|]. rewrite !gauge_app, (sends_gauge x Hx). destruct (first_message c); [|congruence]. destruct e; reflexivity.
Qed.
Print Assumptions C46_session_gauge.
(** However requests and sessions are interleaved, when all have ended the gauge is the number of
    those that did not end regularly. *)
Theorem C46_gauge_after_all : forall s acts h, interleaved (map (trace s) acts) h ->
  gauge h = Z.of_nat (length (filter (fun a => asked a && negb (regular s a)) acts)).
Proof.
  intros s acts h H. rewrite (interleaved_gauge _ _ H). clear H. induction acts as [|a acts IH]; [reflexivity|]. unfold total in *. cbn [map fold_right filter]. rewrite IH, C46_session_gauge.
  destruct (asked a && negb (regular s a)); cbn [length]; lia.
Qed.
Print Assumptions C46_gauge_after_all.
Theorem C46_balanced_if_regular : forall s acts h, interleaved (map (trace s) acts) h -> Forall (fun a => regular s a = true) acts -> gauge h = 0%Z.
Proof.
  intros s acts h H HF. rewrite (C46_gauge_after_all _ _ _ H). clear H. induction HF as [|a acts Ha _ IH]; [reflexivity|]. cbn [filter]. rewrite Ha, andb_false_r. exact IH.
Qed.
Print Assumptions C46_balanced_if_regular.
(** At any time: never negative, at most the number of requests and sessions begun. *)
Theorem C46_gauge_at_any_time : forall s acts ts h, Forall2 (fun a t => exists later, trace s a = t ++ later) acts ts -> interleaved ts h ->
  (0 <= gauge h <= Z.of_nat (length (filter asked acts)))%Z.
Proof.
  intros s acts ts h H Hi. rewrite (interleaved_gauge _ _ Hi). clear Hi. induction H as [|a t acts ts (later & E) _ IH]; [cbn; lia|]. unfold total in *. cbn [map fold_right filter].
  assert (Hb : (0 <= gauge t <= if asked a then 1 else 0)%Z); [|destruct (asked a); cbn [length]; lia]. clear IH. destruct (prefix_gauge s a t later E) as [H1 H2]. split; assumption.
Qed.
Print Assumptions C46_gauge_at_any_time.
(** A text that is not a query is enough to leave the gauge too high; every message arrives. *)
Theorem C46_parse_error_refuted : forall s, exists c, (forall n, send_ok c n = true) /\ gauge (trace s (Socket c)) = 1%Z.
Proof.
  intros s. exists (mkClient (Some (Some (str "("))) (fun _ => true) (fun _ => false) (fun _ => false) (fun _ => None)). split; [reflexivity|]. vm_compute. reflexivity.
Qed.
Print Assumptions C46_parse_error_refuted.
(** So is a client that goes away before the first reply. *)
Theorem C46_lost_client_refuted : forall s t, exists c, first_message c = Some (Some t) /\ gauge (trace s (Socket c)) = 1%Z.
Proof.
  intros s t. exists (mkClient (Some (Some t)) (fun _ => false) (fun _ => true) (fun _ => false) (fun _ => None)). split; [reflexivity|]. reflexivity.
Qed.
Print Assumptions C46_lost_client_refuted.

(** ** C54: the counter of queries *)
Theorem C54_total_counter : forall s acts h, interleaved (map (trace s) acts) h -> totals h = length (filter asked acts).
Proof.
  intros s acts h H. rewrite (interleaved_totals _ _ H). clear H. induction acts as [|a acts IH]; [reflexivity|]. cbn [map fold_right filter]. rewrite IH, trace_totals. destruct (asked a); reflexivity.
Qed.
Print Assumptions C54_total_counter.

(** ** C47: HTTP bodies *)
Theorem C47_http_body : forall s d t (pt : bool) q dict x rs body, in_order s ->
  parse_query (sv_unicode s) t = Ok (Parsed q) -> words_for (sv_lists s) q dict ->
  question_of (sv_ovf s) q dict (if pt then 15 else 300) x -> answered x rs ->
  snd (http_request s d t pt) = Ok body ->
  body = listing (sv_flat s) pt (reported rs) \/
  d <> None /\ exists n, body = listing (sv_flat s) pt (firstn n (reported rs)) ++ timeout_note pt.
Proof.
  intros s d t pt q dict x rs body H0 H1 H2 H3 H5 H6. pose proof (question_sorted _ _ _ _ _ _ H0 H1 H2 H3) as H4. apply (query_words_sound _ _ _ (proj1 H0)) in H2. destruct (http_body s d t pt q dict x rs body H1 H2 H3 H4 H5 H6) as [-> |[Hd (n & ->)]]; [left; apply body_listing|right; split; [exact Hd|]; exists n; rewrite body_listing, timeout_same; reflexivity].
Qed.
Print Assumptions C47_http_body.
(** It does return. *)
Theorem C47_http_returns : forall s q dict (pt : bool) x rs t, in_order s ->
  parse_query (sv_unicode s) t = Ok (Parsed q) -> words_for (sv_lists s) q dict ->
  question_of (sv_ovf s) q dict (if pt then 15 else 300) x -> answered x rs ->
  exists F, forall fuel k d, F <= fuel -> length rs <= k -> exists body, snd (http_request (patient s fuel k) d t pt) = Ok body.
Proof. intros s q dict pt x rs t H0 H1 H2 H3. pose proof (question_sorted _ _ _ _ _ _ H0 H1 H2 H3) as H4. apply (query_words_sound _ _ _ (proj1 H0)) in H2. exact (http_returns s q dict pt x rs t H1 H2 H3 H4). Qed.
Print Assumptions C47_http_returns.
(** Every question of a query has exactly one run: the hypothesis [answered x rs] can always be met. *)
Theorem C47_answered : forall s t q dict n x, in_order s -> parse_query (sv_unicode s) t = Ok (Parsed q) -> words_for (sv_lists s) q dict ->
  question_of (sv_ovf s) q dict n x -> q_expressions q <> [] ->
  exists rs, answered x rs /\ (forall rs', answered x rs' -> rs' = rs) /\
    exists l m, rs = l ++ [RComplete m] /\ Forall (fun r => forall m, r <> RComplete m) l.
Proof. exact question_answered. Qed.
Print Assumptions C47_answered.
Theorem C47_parse_errors : forall s d t pt n, parse_query (sv_unicode s) t = Ok (ParseError n) -> snd (http_request s d t pt) = Ok (sv_describe s n).
Proof. intros s d t pt n H. unfold http_request, run_query_sync. cbn [snd]. rewrite H. reflexivity. Qed.
Print Assumptions C47_parse_errors.
(** At most 15 results for a plain-text request that does not say how many. *)
Theorem C47_plaintext_cap : forall ovf q dict x rs es, question_of ovf q dict 15 x -> Parser.results_limit (q_options q) = None ->
  compiled_all es (qu_exprs x) -> sorted_words (qu_words x) -> answered x rs -> length (reported rs) <= 15.
Proof.
  intros ovf q dict x rs es (_ & _ & _ & Hl) Hn Hc Hs Hr. rewrite Hn in Hl. cbn in Hl. unfold answered in Hr. rewrite Hl in Hr.
  destruct (C29_evaluation_terminates es _ _ (qu_length x) None Hc Hs) as [_ (rs0 & H0 & _)]. destruct (C27_result_limit_exact es _ _ _ 15 rs rs0 Hc Hs H0 Hr) as [E _]. rewrite E. apply firstn_le_length.
Qed.
Print Assumptions C47_plaintext_cap.

(** ** C52: websocket sessions *)
(** What is sent: the opening, then what a client can be told about the run. A session that does not
    get beyond the opening has lost a message. The note that time is up comes only when it is, then not more
    turns have been told of than the session has made; and a session ends regularly only with a last
    word or because the client has left. *)
Theorem C52_conversation : forall s c t q dict x rs, in_order s ->
  first_message c = Some (Some t) -> parse_query (sv_unicode s) t = Ok (Parsed q) -> words_for (sv_lists s) q dict ->
  question_of (sv_ovf s) q dict 300 x -> answered x rs ->
  exists ms, trace s (Socket c) = [TotalAdd; ActiveAdd] ++ map Sent ms ++ (if regular s (Socket c) then [ActiveSub] else []) /\
    (((exists n, ms = firstn n (opening q)) /\ exists j, send_ok c j = false) \/
     exists ms', ms = opening q ++ ms' /\ told (sv_log_lines s) rs ms' /\
       (forall j, gone c j = true \/ over_time c j = true -> turns ms' <= j) /\
       (In STimeout ms' -> exists j, turns ms' <= j /\ over_time c j = true) /\
       (regular s (Socket c) = true -> at_end ms' \/ exists j, gone c j = true)).
Proof.
  intros s c t q dict x rs H0 H1 H2 H3 Hq Hr. pose proof (question_sorted _ _ _ _ _ _ H0 H2 H3 Hq) as Hs. destruct Hq as (E1 & E2 & E3 & E4). apply (query_words_sound _ _ _ (proj1 H0)) in H3. unfold answered in Hr. rewrite E2, E3 in *. rewrite E4 in Hr. unfold trace, regular. destruct (socket s c) as [tr e] eqn:E. cbn [fst snd].
  destruct (session_spec _ _ _ _ _ _ _ _ _ _ _ _ _ _ _ H1 H2 H3 E1 Hs Hr E) as (ms & G1 & G2). exists ms. split; [rewrite G1; destruct e; reflexivity|].
  destruct G2 as [(_ & G2)|(ms' & G2 & G3 & G4 & G5 & G6)]; [left; exact G2|]. right. exists ms'. split; [exact G2|]. split; [exact G3|]. split; [exact G4|]. split; [exact G5|]. destruct e; try discriminate. intros _. apply G6. reflexivity.
Qed.
Print Assumptions C52_conversation.
(** The matches come in order and without gaps; after the note of completion all of them have been sent,
    and besides notes of progress the client has been told exactly the responses of the run. *)
Theorem C52_websocket_matches : forall s c t q dict x rs, in_order s ->
  first_message c = Some (Some t) -> parse_query (sv_unicode s) t = Ok (Parsed q) -> words_for (sv_lists s) q dict ->
  question_of (sv_ovf s) q dict 300 x -> answered x rs ->
  (exists n, sent_matches (trace s (Socket c)) = firstn n (reported rs)) /\
  (forall m, In (Sent (SComplete m)) (trace s (Socket c)) -> sent_matches (trace s (Socket c)) = reported rs /\ (exists l, rs = l ++ [RComplete m]) /\
    exists ms, trace s (Socket c) = [TotalAdd; ActiveAdd] ++ map Sent (opening q ++ ms) ++ (if regular s (Socket c) then [ActiveSub] else []) /\ filter not_progress ms = whole_story (sv_log_lines s) rs).
Proof.
  intros s c t q dict x rs H0 H1 H2 H3 H4 Hr. destruct (C52_conversation s c t q dict x rs H0 H1 H2 H3 H4 Hr) as (ms & Gt & G). pose proof (question_sorted _ _ _ _ _ _ H0 H2 H3 H4) as Hs. destruct H4 as (E1 & E2 & E3 & E4). apply (query_words_sound _ _ _ (proj1 H0)) in H3. unfold answered in Hr. rewrite E2, E3 in *. rewrite E4 in Hr. 
  destruct (socket s c) as [tr e] eqn:E. destruct (websocket_matches _ _ _ _ _ _ _ _ _ _ _ _ _ _ _ H1 H2 H3 E1 Hs Hr E) as [G1 G2]. assert (Ht : trace s (Socket c) = tr) by (unfold trace; rewrite E; reflexivity). rewrite Ht in *. split; [exact G1|]. intros m Hm. destruct (G2 m Hm) as [G3 G4]. split; [exact G3|]. split; [exact G4|].
  assert (Ho : ~ In (SComplete m) (opening q)). { unfold opening. cbn [app In]. intros [Hx|[Hx|Hx]]; try discriminate. apply repeat_spec in Hx. discriminate. }
  assert (Hin : In (SComplete m) ms). { rewrite Gt in Hm. cbn [app In] in Hm. destruct Hm as [Hm|[Hm|Hm]]; try discriminate. apply in_app_iff in Hm. destruct Hm as [Hm|Hm]; [apply in_map_iff in Hm; destruct Hm as (y & [= ->] & Hy); exact Hy|]. destruct (regular s (Socket c)); [destruct Hm as [Hm|[]]; discriminate|destruct Hm]. }
  destruct G as [[(n & ->) _]|(ms' & -> & Gtold & _)]; [destruct Ho; rewrite <- (firstn_skipn n (opening q)); apply in_app_iff; left; exact Hin|].
  apply in_app_iff in Hin. destruct Hin as [Hin|Hin]; [contradiction|]. exists ms'. split; [exact Gt|]. exact (proj1 (told_complete _ _ _ Gtold m Hin)).
Qed.
Print Assumptions C52_websocket_matches.
(** A client that stays, to whom every message arrives, without deadlines: it is told everything. *)
Theorem C52_complete_session : forall s c t q dict x rs, in_order s ->
  first_message c = Some (Some t) -> parse_query (sv_unicode s) t = Ok (Parsed q) -> words_for (sv_lists s) q dict ->
  question_of (sv_ovf s) q dict 300 x -> answered x rs ->
  (forall i, send_ok c i = true /\ gone c i = false /\ over_time c i = false /\ time_left c i = None) ->
  exists F, forall fuel k, F <= fuel -> length rs <= k -> trace (patient s fuel k) (Socket c) = [TotalAdd; ActiveAdd] ++ map Sent (opening q ++ whole_story (sv_log_lines s) rs) ++ [ActiveSub].
Proof.
  intros s c t q dict x rs H0 H1 H2 H3 Hq Hr Hc. pose proof (question_sorted _ _ _ _ _ _ H0 H2 H3 Hq) as Hs. destruct Hq as (E1 & E2 & E3 & E4). apply (query_words_sound _ _ _ (proj1 H0)) in H3. unfold answered in Hr. rewrite E2, E3 in *. rewrite E4 in Hr.
  destruct (session_completes _ (sv_est s) (sv_log_lines s) _ _ _ _ _ _ _ _ H1 H2 H3 E1 Hs Hr Hc) as (F & HF). exists F. intros fuel k Hf Hk. unfold trace, socket, patient. cbn [sv_ovf sv_unicode sv_lists sv_est sv_log_lines sv_fuel sv_turns]. rewrite (HF fuel k Hf Hk). reflexivity.
Qed.
Print Assumptions C52_complete_session.
(** A text that is not a query. *)
Theorem C52_parse_error : forall s c t n, first_message c = Some (Some t) -> parse_query (sv_unicode s) t = Ok (ParseError n) ->
  exists k, trace s (Socket c) = [TotalAdd; ActiveAdd] ++ map Sent (firstn k [SRunning; SParseError; SErrorLog n]) /\ ((forall i, send_ok c i = true) -> 3 <= k).
Proof.
  intros s c t n H1 H2. unfold trace, socket, run_websocket, run_websocket_from. rewrite H1. unfold sbind, sdo, ssend, sret. destruct (send_ok c 0) eqn:E0; [|exists 0; split; [reflexivity|intros H; rewrite H in E0; discriminate]]. rewrite H2. cbn [slift sret].
  destruct (send_ok c 1) eqn:E1; [|exists 1; split; [reflexivity|intros H; rewrite H in E1; discriminate]]. destruct (send_ok c 2) eqn:E2; [|exists 2; split; [reflexivity|intros H; rewrite H in E2; discriminate]]. exists 3. split; [reflexivity|lia].
Qed.
Print Assumptions C52_parse_error.

(** ** C48: dictionaries *)
(** The wordlists of a directory have different names; of files with the same name up to the first dot
    the first one is taken. *)
Theorem C48_loading : forall u files, NoDup (map fst (load_lists u files [])) /\
  forall name ws, In (name, ws) (load_lists u files []) <->
    exists before f lines after, files = before ++ (f, lines) :: after /\ name_of f name /\ ws = load_wordlist u lines /\ Forall (fun x => ~ name_of (fst x) name) before.
Proof. intros u files. split; [apply load_lists_spec; constructor|apply load_names]. Qed.
Print Assumptions C48_loading.
Theorem C48_loaded_is_used : forall lists name ws, NoDup (map fst lists) -> In (name, ws) lists -> words lists name = Ok ws.
Proof. intros lists name ws Hd H. unfold words. apply (find_words_iff _ _ _ Hd) in H. rewrite H. reflexivity. Qed.
Print Assumptions C48_loaded_is_used.
Theorem C48_unknown_is_default : forall lists name ws, NoDup (map fst lists) -> ~ In name (map fst lists) -> In (str "default", ws) lists -> words lists name = Ok ws.
Proof.
  intros lists name ws Hd Hn H. unfold words. apply find_words_none in Hn. rewrite Hn. apply (find_words_iff _ _ _ Hd) in H. unfold DEFAULT_WORDLIST. rewrite H. reflexivity.
Qed.
Print Assumptions C48_unknown_is_default.
Theorem C48_no_default_panics : forall lists name, ~ In name (map fst lists) -> ~ In (str "default") (map fst lists) -> words lists name = Panic.
Proof. intros lists name H1 H2. unfold words. apply find_words_none in H1, H2. unfold DEFAULT_WORDLIST. rewrite H1, H2. reflexivity. Qed.
Print Assumptions C48_no_default_panics.
(** A wordlist that is downloaded has the words of that list, one on each line. *)
Theorem C48_wordlist_download : forall u files name ws, Forall (fun f => Forall (fun l => ~ In 10%N l) (snd f)) files ->
  let lists := load_lists u files [] in
  In (name, ws) lists \/ ~ In name (map fst lists) /\ In (str "default", ws) lists ->
  exists body, get_wordlist lists name = Ok body /\ text_lines body (map w_text ws).
Proof.
  intros u files name ws Hf lists H. destruct (C48_loading u files) as [Hd _]. fold lists in Hd. unfold get_wordlist. assert (E : words lists name = Ok ws) by (destruct H as [H|[H1 H2]]; [apply C48_loaded_is_used|apply C48_unknown_is_default]; assumption). rewrite E. cbn [bind].
  eexists. split; [reflexivity|]. apply wordlist_lines. destruct H as [H|[_ H]]; exact (loaded_lines _ _ _ _ Hf H).
Qed.
Print Assumptions C48_wordlist_download.
(** Which words a request is about: those of the list it names, if there is one, else the default. *)
Theorem C48_request_words : forall lists q ws, NoDup (map fst lists) -> (query_words lists q = Ok ws <-> words_for lists q ws).
Proof. intros lists q ws H. exact (words_for_iff lists q ws H). Qed.
Print Assumptions C48_request_words.
(** The wordlists that come with the program (directory wordlists): a query that names none of them
    crashes the request, even if it brings its own words. *)
Definition shipped : list text := [str "dumpling.tsv.zst"; str "npl-allwords2.tsv.zst"; str "pokemon.txt.zst"; str "scrabble.tsv.zst"].
Theorem C48_shipped_wordlists_refuted : forall s u files d t pt q,
  Permutation (map fst files) shipped -> sv_lists s = load_lists u files [] ->
  parse_query (sv_unicode s) t = Ok (Parsed q) -> dictionary (q_options q) = None ->
  snd (http_request s d t pt) = Panic.
Proof.
  intros s u files d t pt q Hp Hl Hq Hd. unfold http_request, run_query_sync. cbn [snd]. rewrite Hq. cbn [bind]. unfold query_words.
  assert (E : dictionary (q_options (http_query pt q)) = None) by (unfold http_query; destruct pt; [destruct (Parser.results_limit (q_options q))|]; exact Hd). rewrite E. cbn [unwrap_or]. rewrite C48_no_default_panics; [reflexivity| |].
  all: rewrite Hl; intros H; apply in_map_iff in H; destruct H as ([n ws] & Hn & H); cbn [fst] in Hn; subst n; apply (load_lists_spec u files [] (NoDup_nil _)) in H; destruct H as [[]|[_ (b & f & lines & a & E1 & E2 & _)]];
    assert (Hf : In f shipped) by (apply (Permutation_in _ Hp); rewrite E1, map_app; apply in_app_iff; right; left; reflexivity);
    destruct Hf as [<-|[<-|[<-|[<-|[]]]]]; vm_compute in E2; discriminate E2.
Qed.
Print Assumptions C48_shipped_wordlists_refuted.
Example C48_shipped_witness : forall u, exists q, Permutation (map fst (map (fun f => (f, [str "word"])) shipped)) shipped /\ parse_query u (str "ab") = Ok (Parsed q) /\ dictionary (q_options q) = None.
Proof. intros u. eexists. split; [apply Permutation_refl|]. split; [vm_compute; reflexivity|reflexivity]. Qed.

(** ** C53: accepted queries can be run *)
Theorem C48_loaded_in_order : forall u files s, sv_lists s = load_lists u files [] -> in_order s.
Proof. intros u files s E. unfold in_order. rewrite E. split; [apply C48_loading|apply loaded_sorted]. Qed.
Print Assumptions C48_loaded_in_order.
Theorem C53_runnable : forall ovf q input, (exists ev, evaluator_from_ast ovf q input = Ok ev) <->
  q_expressions q <> [] /\ Forall (fun e => exists ex, from_ast ovf e = Ok ex) (q_expressions q).
Proof. exact runnable. Qed.
Print Assumptions C53_runnable.
(** The empty text is a query, and running it panics. *)
Theorem C53_empty_query_refuted : forall u ovf input, exists q, parse_query u [] = Ok (Parsed q) /\ evaluator_from_ast ovf q input = Panic.
Proof. intros u ovf input. exists (mkQueryAst [] [] no_query_options). split; [vm_compute; reflexivity|reflexivity]. Qed.
Print Assumptions C53_empty_query_refuted.

(** ** Witnesses *)
Definition sample_server (u : unicode) : server :=
  mkServer true u [(str "default", map text_word [str "a"; str "ab"; str "abc"; str "b"; str "c"])] (fun p => flat_map w_text p) (fun _ => str "error")
    (mkEst (fun _ => 0%N) (fun _ _ => 0%N)) (fun _ => 1) 200 200.
Definition sample_question : question := mkQuestion [compile (lit [0; 1])] (map text_word [str "a"; str "ab"; str "abc"; str "b"; str "c"]) 10 (Some 15).
Example C47_hypotheses_met : forall u, exists q dict rs body, in_order (sample_server u) /\ parse_query (sv_unicode (sample_server u)) (str "ab") = Ok (Parsed q) /\ words_for (sv_lists (sample_server u)) q dict /\
  question_of (sv_ovf (sample_server u)) q dict 15 sample_question /\ answered sample_question rs /\
  reported rs = [[text_word (str "ab")]; [text_word (str "a"); text_word (str "b")]] /\
  snd (http_request (sample_server u) None (str "ab") true) = Ok body /\ body = str "ab " ++ [10%N] ++ str "a b " ++ [10%N].
Proof.
  intros u. exists (mkQueryAst [] [lit [0; 1]] no_query_options), (map text_word [str "a"; str "ab"; str "abc"; str "b"; str "c"]).
  do 2 eexists. split; [split; [repeat constructor; intros []|repeat constructor; apply sorted_b_ok; vm_compute; reflexivity]|]. split; [vm_compute; reflexivity|]. split; [apply words_default; [discriminate|left; reflexivity]|]. split; [split; [vm_compute; reflexivity|repeat split]|].
  split; [apply (run_b_ok _ _ _ _ 100 100); vm_compute; reflexivity|]. split; [vm_compute; reflexivity|]. split; vm_compute; reflexivity.
Qed.
(** With a deadline that expires after one look at the clock. *)
Example C47_timeout_witness : forall u, exists body, snd (http_request (sample_server u) (Some 0) (str "ab") true) = Ok body /\ body = timeout_note true.
Proof. intros u. eexists. split; vm_compute; reflexivity. Qed.
Definition sample_client : client := mkClient (Some (Some (str "ab"))) (fun _ => true) (fun _ => false) (fun _ => false) (fun _ => None).
Example C52_hypotheses_met : forall u, trace (sample_server u) (Socket sample_client) =
  [TotalAdd; ActiveAdd; Sent SRunning; Sent SParsed; Sent SExpression; Sent (SMatch [text_word (str "ab")]); Sent SLog; Sent (SMatch [text_word (str "a"); text_word (str "b")]);
   Sent (SComplete (AllPhrases 2 10)); ActiveSub].
Proof. intros u. vm_compute. reflexivity. Qed.
(** Two sessions at the same time, one of them not a query. *)
Example C46_hypotheses_met : forall u, let s := sample_server u in
  let bad := Socket (mkClient (Some (Some (str "("))) (fun _ => true) (fun _ => false) (fun _ => false) (fun _ => None)) in let good := Socket (mkClient (Some (Some (str "ab"))) (fun _ => true) (fun _ => true) (fun _ => false) (fun _ => None)) in
  exists h, interleaved (map (trace s) [good; bad]) h /\ regular s good = true /\ regular s bad = false /\ gauge h = 1%Z.
Proof.
  intros u s bad good. exists (trace s good ++ trace s bad). split; [|split; [vm_compute; reflexivity|]; split; vm_compute; reflexivity].
  cbn [map]. generalize (trace s good) as a, (trace s bad) as b. intros a b. induction a as [|e a IH]; [|exact (one_step [] e a [b] _ IH)]. cbn [app]. induction b as [|e b IH]; [apply all_over; repeat constructor|exact (one_step [[]] e b [] _ IH)].
Qed.
