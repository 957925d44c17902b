(** Specification for the two programs: gauge, histories of a server, what was sent. *)
From Coq Require Import ZArith String.
From Verif Require Export Apps Answers Results.
Local Open Scope list_scope.

(** The active-query gauge (main.rs:60, 94). *)
Definition change (e : effect) : Z := match e with ActiveAdd => 1 | ActiveSub => -1 | _ => 0 end%Z.
Definition gauge (t : list effect) : Z := fold_right Z.add 0%Z (map change t).

(** [t] is made of the steps of all the traces [ts], each in its order. *)
Inductive interleaved : list (list effect) -> list effect -> Prop :=
| all_over ts : Forall (eq []) ts -> interleaved ts []
| one_step ts1 e t ts2 h : interleaved (ts1 ++ t :: ts2) h -> interleaved (ts1 ++ (e :: t) :: ts2) (e :: h).

(** The phrases sent to a client, in order. *)
Definition sent_matches (t : list effect) : list (list word) :=
  flat_map (fun e => match e with Sent (SMatch p) => [p] | _ => [] end) t.

(** A phrase on one line: the texts of its words with a space between them, or one after each. *)
Inductive spaced : list word -> text -> Prop :=
| spaced_one w : spaced [w] (w_text w)
| spaced_more w p t : spaced p t -> spaced (w :: p) (w_text w ++ [32%N] ++ t).
Fixpoint phrase_line (p : list word) : text := match p with [] => [10%N] | w :: p' => w_text w ++ 32%N :: phrase_line p' end.
(** The lines of a body: in plain text, or as JSON ([json] gives the text of a phrase). *)
Definition listing (json : list word -> text) (plaintext : bool) (ps : list (list word)) : text :=
  concat (map (fun p => if plaintext then phrase_line p else json p ++ [10%N]) ps).
Definition timeout_note (plaintext : bool) : text :=
  (if plaintext then str "# Timeout after 10s" else str "# Timeout after 150s") ++ [10%N].
(** The name of a wordlist: what comes before the first dot of the file name. *)
Definition name_of (file name : text) : Prop := Forall (fun c => c <> 46%N) name /\ (file = name \/ exists rest, file = name ++ 46%N :: rest).

(** The words a query is asked about on a server: those of the wordlist it names if there is such a
    wordlist, otherwise those of the one called "default". *)
Inductive words_for (lists : list (text * list word)) (q : query_ast) : list word -> Prop :=
| words_named name ws : dictionary (q_options q) = Some name -> In (name, ws) lists -> words_for lists q ws
| words_default ws : (forall name, dictionary (q_options q) = Some name -> ~ In name (map fst lists)) -> In (str "default", ws) lists -> words_for lists q ws.

(** What a client is told about the responses [rs] of an uninterrupted run: matches, one message for
    each line of a log and the end, in the order of [rs]; in between any number of notes that the search goes
    on. It may stop anywhere (the client leaves or a message is lost), or end with the note that time is up. *)
Inductive told (log_lines : bool -> nat) : list response -> list reply -> Prop :=
| told_no_more rs : told log_lines rs []
| told_time_up rs : told log_lines rs [STimeout]
| told_progress rs ms : told log_lines rs ms -> told log_lines rs (SProcessing :: ms)
| told_match p rs ms : told log_lines rs ms -> told log_lines (RMatch p :: rs) (SMatch p :: ms)
| told_log g rs ms : told log_lines rs ms -> told log_lines (RLogs g :: rs) (repeat SLog (log_lines g) ++ ms)
| told_part_of_log g n rs : n <= log_lines g -> told log_lines (RLogs g :: rs) (repeat SLog n)
| told_end m : told log_lines [RComplete m] [SComplete m].
(** All of it. *)
Definition whole_story (log_lines : bool -> nat) (rs : list response) : list reply :=
  flat_map (fun r => match r with RMatch p => [SMatch p] | RLogs g => repeat SLog (log_lines g) | RComplete m => [SComplete m] | RTimeout => [SProcessing] end) rs.
(** The messages that belong to single turns of the search, and how many there are. *)
Definition of_a_turn (r : reply) : bool := match r with SMatch _ | SProcessing => true | _ => false end.
Definition turns (ms : list reply) : nat := length (filter of_a_turn ms).
Definition not_progress (r : reply) : bool := match r with SProcessing => false | _ => true end.
(** Before the search: the query is running, it has been parsed, and one line for each expression. *)
Definition opening (q : query_ast) : list reply := [SRunning; SParsed] ++ repeat SExpression (length (q_expressions q)).
(** The last message says that time is up or the search is complete. *)
Definition at_end (ms : list reply) : Prop := exists l r, ms = l ++ [r] /\ (r = STimeout \/ exists m, r = SComplete m).

(** The lines of a text, each ended by a newline. *)
Inductive text_lines : text -> list text -> Prop :=
| lines_none : text_lines [] []
| lines_one l t ls : ~ In 10%N l -> text_lines t ls -> text_lines (l ++ [10%N] ++ t) (l :: ls).

(** What a query is about: expressions, words, longest phrase and number of results; [input], the
    words it gets, [limit], how many results there may be if it does not say so; [ovf], whether overflow
    is checked (the build profile). *)
Record question := mkQuestion { qu_exprs : list expression; qu_words : list word; qu_length : nat; qu_limit : option nat }.
Definition given_or {A} (o : option A) (a : A) : A := match o with Some x => x | None => a end.
Definition question_of (ovf : bool) (q : query_ast) (input : list word) (limit : nat) (x : question) : Prop :=
  mapM (from_ast ovf) (q_expressions q) = Ok (qu_exprs x) /\
  qu_words x = given_or (wordlist (q_options q)) input /\
  qu_length x = given_or (max_words (q_options q)) 10 /\
  qu_limit x = Some (given_or (Parser.results_limit (q_options q)) limit).
(** [rs]: all responses to a question, without deadlines. *)
Definition answered (x : question) (rs : list response) : Prop :=
  query_run (qu_exprs x) (qu_words x) (qu_length x) (qu_limit x) rs.

(** A server and what happens to it. *)
Record server := mkServer {
  sv_ovf : bool; sv_unicode : unicode; sv_lists : list (text * list word);
  sv_flat : list word -> text; sv_describe : nat -> text;
  sv_est : estimator; sv_log_lines : bool -> nat;
  sv_fuel : nat; sv_turns : nat
}.
(** Its wordlists have different names, and their words are sorted by tranche: so they are after loading. *)
Definition in_order (s : server) : Prop :=
  NoDup (map fst (sv_lists s)) /\ Forall (fun l => sorted_words (snd l)) (sv_lists s).
(** The same server with other bounds on the search. *)
Definition patient (s : server) (fuel k : nat) : server :=
  mkServer (sv_ovf s) (sv_unicode s) (sv_lists s) (sv_flat s) (sv_describe s) (sv_est s) (sv_log_lines s) fuel k.
Inductive activity := Http (d : deadline) (query : text) (plaintext : bool) | Socket (c : client).
Definition http_request (s : server) (d : deadline) (query : text) (plaintext : bool) : list effect * outcome text :=
  run_query_sync (sv_ovf s) (sv_unicode s) (sv_lists s) (sv_flat s) (sv_describe s) (sv_fuel s) (sv_turns s) d query plaintext.
Definition socket (s : server) (c : client) : list effect * ending :=
  run_websocket (sv_ovf s) (sv_est s) (sv_log_lines s) (sv_unicode s) (sv_lists s) (sv_fuel s) (sv_turns s) c.
Definition trace (s : server) (a : activity) : list effect :=
  match a with Http d t pt => fst (http_request s d t pt) | Socket c => fst (socket s c) end.
(** It ended regularly. *)
Definition regular (s : server) (a : activity) : bool :=
  match a with
  | Http d t pt => match snd (http_request s d t pt) with Ok _ => true | _ => false end
  | Socket c => match snd (socket s c) with Finished => true | _ => false end
  end.
(** A request, or a session in which the client has said something. *)
Definition asked (a : activity) : bool :=
  match a with Http _ _ _ => true | Socket c => match first_message c with Some _ => true | None => false end end.
Definition totals (t : list effect) : nat := length (filter (fun e => match e with TotalAdd => true | _ => false end) t).
