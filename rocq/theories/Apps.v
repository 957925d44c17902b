(** Model of the two programs: noodle-cli/src/main.rs and noodle-webapp/src/main.rs, and of
    [QueryEvaluator::from_ast], which connects the parser with the evaluator. *)
From Coq Require Import String.
From Verif Require Export Parser Progress.
Local Open Scope list_scope.

(** query.rs:134-167 *)
Definition DEFAULT_SEARCH_DEPTH_LIMIT : nat := 10.
Definition DEFAULT_RESULTS_LIMIT : nat := 300.
Definition evaluator_from_ast (ovf : bool) (q : query_ast) (input : list word) : outcome evaluator :=
  do exs <- mapM (from_ast ovf) (q_expressions q);
  query_new exs (unwrap_or (wordlist (q_options q)) input)
    (unwrap_or (max_words (q_options q)) DEFAULT_SEARCH_DEPTH_LIMIT)
    (Some (unwrap_or (Parser.results_limit (q_options q)) DEFAULT_RESULTS_LIMIT)).
(** query.rs:169-177 *)
Definition set_search_depth_limit (n : nat) (ev : evaluator) : outcome evaluator :=
  match q_phase ev with
  | QWord _ _ => Ok (mkEval (q_phase ev) n (Query.results_limit ev) (results_count ev))
  | _ => Panic
  end.
Definition set_results_limit (n : option nat) (ev : evaluator) : outcome evaluator :=
  match q_phase ev with
  | QWord _ _ => Ok (mkEval (q_phase ev) (depth_limit ev) n (results_count ev))
  | _ => Panic
  end.

(** ** The command-line tool *)
(** [str]::join(" ") *)
Fixpoint join_spaces (l : list text) : text :=
  match l with [] => [] | [t] => t | t :: l' => t ++ 32%N :: join_spaces l' end.
(** noodle-cli/src/main.rs:35-46 *)
Definition cli_lines (rs : list response) : list text :=
  flat_map (fun r => match r with RMatch p => [join_spaces (map w_text p)] | _ => [] end) rs.
(** noodle-cli/src/main.rs:27-47, after the arguments and the words have been read; the lines printed.
    [fuel] and [k] bound the search as in [iterate]. *)
Definition cli (ovf : bool) (u : unicode) (fuel k : nat) (count : option nat) (phrase_length : nat) (query : text) (words : list word)
  : outcome (list text) :=
  do r <- parse_query u query;
  match r with
  | ParseError _ => Panic
  | Parsed q =>
      do ev <- evaluator_from_ast ovf q words;
      do ev <- set_results_limit count ev;
      do ev <- set_search_depth_limit phrase_length ev;
      do (ev', rs) <- iterate fuel k ev;
      match q_phase ev' with QDone => Ok (cli_lines rs) | _ => OutOfFuel end
  end.

(** ** The server *)
(** noodle-webapp/src/main.rs:124-128. The wordlists by name; names are distinct (lines 44-47). *)
Fixpoint find_words (name : text) (lists : list (text * list word)) : option (list word) :=
  match lists with [] => None | (n, ws) :: l' => if text_eqb name n then Some ws else find_words name l' end.
Definition DEFAULT_WORDLIST : text := str "default".
Definition words (lists : list (text * list word)) (name : text) : outcome (list word) :=
  match find_words name lists with
  | Some ws => Ok ws
  | None => match find_words DEFAULT_WORDLIST lists with Some ws => Ok ws | None => Panic end
  end.
(** noodle-webapp/src/main.rs:174, 254 *)
Definition query_words (lists : list (text * list word)) (q : query_ast) : outcome (list word) :=
  words lists (unwrap_or (dictionary (q_options q)) DEFAULT_WORDLIST).

(** noodle-webapp/src/main.rs:29-58: the regular files of the directory, in the order in which they are
    read, with their lines; the files that are not regular (line 33) are left out. *)
Definition list_name (file : text) : text := match split_once 46%N file with Some (p, _) => p | None => file end.
Fixpoint load_lists (u : unicode) (files : list (text * list text)) (lists : list (text * list word)) : list (text * list word) :=
  match files with
  | [] => lists
  | (f, lines) :: files' =>
      load_lists u files' (match find_words (list_name f) lists with
                           | Some _ => lists
                           | None => lists ++ [(list_name f, load_wordlist u lines)]
                           end)
  end.
(** noodle-webapp/src/main.rs:112-122: the body *)
Definition get_wordlist (lists : list (text * list word)) (name : text) : outcome text :=
  do ws <- words lists name; Ok (flat_map (fun w => w_text w ++ [10%N]) ws).

(** What is seen of a request or session from outside. *)
Inductive reply :=
| SRunning                       (* main.rs:231-234 *)
| SParseError                    (* main.rs:240 *)
| SErrorLog (line : nat)         (* main.rs:242-244 *)
| SParsed                        (* main.rs:248-251 *)
| SExpression                    (* main.rs:257-259 *)
| STimeout                       (* main.rs:278-281 *)
| SMatch (p : list word)         (* main.rs:287 *)
| SLog                           (* main.rs:290 *)
| SProcessing                    (* main.rs:294-298 *)
| SComplete (m : message).       (* main.rs:302 *)
Inductive effect :=
| TotalAdd                       (* TOTAL_QUERIES.fetch_add(1) *)
| ActiveAdd                      (* ACTIVE_QUERIES.fetch_add(1) *)
| ActiveSub                      (* ACTIVE_QUERIES.fetch_sub(1) *)
| Sent (r : reply).

(** *** HTTP *)
(** noodle-webapp/src/main.rs:176-199. The deadline is the same for all calls; [d] is what is left of
    it. [flat] is [flatten_phrase] (JSON). *)
Definition plain_line (p : list word) : text := flat_map (fun w => w_text w ++ [32%N]) p ++ [10%N].
Definition body_line (flat : list word -> text) (plaintext : bool) (p : list word) : text :=
  if plaintext then plain_line p else flat p ++ [10%N].
Definition timeout_line (plaintext : bool) : text :=
  str "# Timeout after " ++ (if plaintext then str "10s" else str "150s") ++ [10%N].
Fixpoint body_loop (fuel k : nat) (flat : list word -> text) (plaintext : bool) (d : deadline) (ev : evaluator) : outcome text :=
  match k with
  | 0 => OutOfFuel
  | S k' =>
      do (ev', r, d') <- next_within_deadline fuel d ev;
      match r with
      | RMatch p => do b <- body_loop fuel k' flat plaintext d' ev'; Ok (body_line flat plaintext p ++ b)
      | RTimeout => Ok (timeout_line plaintext)
      | RLogs _ => body_loop fuel k' flat plaintext d' ev'
      | RComplete _ => Ok []
      end
  end.
(** noodle-webapp/src/main.rs:170-172 *)
Definition http_query (plaintext : bool) (q : query_ast) : query_ast :=
  match plaintext, Parser.results_limit (q_options q) with
  | true, None => mkQueryAst (macros q) (q_expressions q) (set_limit (q_options q) (Some 15))
  | _, _ => q
  end.
(** noodle-webapp/src/main.rs:147-206: what happens and the body of the response. [describe] is the
    text of a parse error. *)
Definition run_query_sync (ovf : bool) (u : unicode) (lists : list (text * list word)) (flat : list word -> text) (describe : nat -> text)
    (fuel k : nat) (d : deadline) (query : text) (plaintext : bool) : list effect * outcome text :=
  let body :=
    do r <- parse_query u query;
    match r with
    | ParseError n => Ok (describe n)
    | Parsed q =>
        let q := http_query plaintext q in
        do dict <- query_words lists q;
        do ev <- evaluator_from_ast ovf q dict;
        body_loop fuel k flat plaintext d ev
    end in
  ([TotalAdd; ActiveAdd] ++ match body with Ok _ => [ActiveSub] | _ => [] end, body).

(** *** Websockets *)
(** The other side of a session and the clock. *)
Record client := mkClient {
  first_message : option (option text);  (* None: closed before any message; Some None: not a text message *)
  send_ok : nat -> bool;                 (* does the n-th message sent arrive *)
  gone : nat -> bool;                    (* has the client closed the connection, at turn n of the loop *)
  over_time : nat -> bool;               (* is duration above 150 s, at turn n *)
  time_left : nat -> deadline            (* the deadline of turn n *)
}.
(** How a session ends: the block returns Ok, returns an error, or panics. *)
Inductive ending := Finished | Failed | Panicked | Undefined | Unfinished.
(** What has been done, how many messages have been sent, and the result so far. *)
Definition session (A : Type) : Type := nat -> list effect * nat * (A + ending).
Definition sret {A} (a : A) : session A := fun n => ([], n, inl a).
Definition sstop {A} (e : ending) : session A := fun n => ([], n, inr e).
Definition sbind {A B} (m : session A) (f : A -> session B) : session B :=
  fun n => match m n with
           | (t, n', inl a) => let '(t', n'', r) := f a n' in (t ++ t', n'', r)
           | (t, n', inr e) => (t, n', inr e)
           end.
Definition sdo (t : list effect) : session unit := fun n => (t, n, inl tt).
(** tx.send(..).await? *)
Definition ssend (c : client) (r : reply) : session unit :=
  fun n => if send_ok c n then ([Sent r], S n, inl tt) else ([], S n, inr Failed).
Definition slift {A} (o : outcome A) : session A :=
  match o with Ok a => sret a | Panic => sstop Panicked | UB => sstop Undefined | OutOfFuel => sstop Unfinished end.
Fixpoint ssends (c : client) (rs : list reply) : session unit :=
  match rs with [] => sret tt | r :: rs' => sbind (ssend c r) (fun _ => ssends c rs') end.
(** noodle-webapp/src/main.rs:264-307; [i] counts the turns. [log_lines] is how many lines a Logs
    response has. The text of [progress] is dropped, its panics are not. *)
Fixpoint turn_loop (ovf : bool) (est : estimator) (log_lines : bool -> nat) (fuel k : nat) (c : client) (i : nat) (ev : evaluator) : session unit :=
  match k with
  | 0 => sstop Unfinished
  | S k' =>
      if gone c i then sret tt
      else if over_time c i then ssend c STimeout
      else
        sbind (slift (next_within_deadline fuel (time_left c i) ev)) (fun '(ev', r, _) =>
        match r with
        | RMatch p => sbind (ssend c (SMatch p)) (fun _ => turn_loop ovf est log_lines fuel k' c (S i) ev')
        | RLogs g => sbind (ssends c (repeat SLog (log_lines g))) (fun _ => turn_loop ovf est log_lines fuel k' c (S i) ev')
        | RTimeout =>
            sbind (slift (progress ovf est ev')) (fun _ =>
            sbind (ssend c SProcessing) (fun _ => turn_loop ovf est log_lines fuel k' c (S i) ev'))
        | RComplete m => ssend c (SComplete m)
        end)
  end.
(** noodle-webapp/src/main.rs:209-322. Every message is sent with [?]: a failure ends the block, and
    so does a parse error (line 247). *)
Definition run_websocket_from (ovf : bool) (est : estimator) (log_lines : bool -> nat) (u : unicode) (lists : list (text * list word)) (fuel k : nat) (c : client) : session unit :=
  match first_message c with
  | None => sstop Failed
  | Some msg =>
      sbind (sdo [TotalAdd; ActiveAdd]) (fun _ =>
      sbind (ssend c SRunning) (fun _ =>
      sbind (match msg with Some t => sret t | None => sstop Panicked end) (fun t =>
      sbind (slift (parse_query u t)) (fun r =>
      match r with
      | ParseError n => sbind (ssend c SParseError) (fun _ => sbind (ssend c (SErrorLog n)) (fun _ => sstop Failed))
      | Parsed q =>
          sbind (ssend c SParsed) (fun _ =>
          sbind (slift (query_words lists q)) (fun dict =>
          sbind (slift (evaluator_from_ast ovf q dict)) (fun ev =>
          sbind (ssends c (map (fun _ => SExpression) (q_expressions q))) (fun _ =>
          sbind (turn_loop ovf est log_lines fuel k c 0 ev) (fun _ => sdo [ActiveSub])))))
      end))))
  end.
Definition run_websocket ovf est log_lines u lists fuel k c : list effect * ending :=
  match run_websocket_from ovf est log_lines u lists fuel k c 0 with
  | (t, _, inl _) => (t, Finished)
  | (t, _, inr e) => (t, e)
  end.
