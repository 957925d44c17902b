(** Specification: from the text of a query to the phrases reported. Not part of the program. *)
From Coq Require Import String Permutation.
From Verif Require Export AppsSpec.
From Verif Require Export Script.
From Verif Require Import Syntax.
Local Open Scope list_scope.

(** ** Which queries *)
(** The number of symbols of the texts a pattern stands for, if they all have the same number. *)
Definition sum_all (l : list (option nat)) : option nat :=
  fold_right (fun o s => match o, s with Some a, Some b => Some (a + b) | _, _ => None end) (Some 0) l.
Fixpoint lasting (p : pat) : option nat :=
  match p with
  | Symbol _ | Dot | Class _ _ => Some 1
  | Group [ps] => sum_all (map lasting ps)
  | Repeated p l (Some m) => if l =? m then option_map (Nat.mul l) (lasting p) else None
  | _ => None
  end.
(** The states it takes for a block, at most. *)
Definition block_size (k : anagram_kind) (bank : list char) : nat :=
  6 * length bank + 5 + match k with TransAdd n => n | _ => 0 end.
(** One anagram block between parts of fixed length; no edits are asked for, and word ends do not
    count. *)
Definition one_block (p : list (list pat) * list request) : Prop :=
  exists pre k bank post n m, fst p = [pre ++ Block k bank :: post] /\
    sum_all (map lasting pre) = Some n /\ sum_all (map lasting post) = Some m /\
    forallb branched (pre ++ post) = true /\ list_sum (map size (pre ++ post)) + block_size k bank < 16 * 1024 /\
    (forall f, last_fuzz (snd p) = Some f -> f = 0) /\ ~ In WordEnds (snd p) /\ ~ speaks WORD_END (Group (fst p)).
(** The patterns the theorems are about. *)
Definition answerable (p : list (list pat) * list request) : Prop := plain_pattern (fst p) = true \/ one_block p.
(** The text [t] comes to the lines [ls] and lists the words [own] if it lists any. *)
Record good_query (u : unicode) (ls : list line) (own : option (list word)) (t : text) : Prop := {
  its_text : writes_script u ls own t;
  its_patterns : patterns ls <> [];
  all_answerable : Forall answerable (patterns ls)
}.

(** ** What it asks for *)
Definition wanted (ls : list line) (p : list word) : Prop := Forall (fun x => fits x (phrase_text p)) (patterns ls).
Definition longest (ls : list line) : nat := given_or (latest words_line ls) 10.
Definition results_wanted (ls : list line) (default : nat) : nat := given_or (latest limit_line ls) default.
(** The words it is about on a server, unless it lists its own: those of the wordlist it names if there is such a wordlist,
    otherwise those of the wordlist "default". *)
Definition its_words (lists : list (text * list word)) (ls : list line) (ws : list word) : Prop :=
  match latest dict_line ls with
  | Some name => In (name, ws) lists \/ ~ In name (map fst lists) /\ In (str "default", ws) lists
  | None => In (str "default", ws) lists
  end.

(** ** The answer *)
(** Without a limit on their number: first the single words, in the order of the wordlist; then, once
    each, the phrases of two to [n] words, but for at most one repetition of a single word (C24). *)
Definition right_answer (wanted : list word -> Prop) (ws : list word) (n : nat) (ps : list (list word)) : Prop :=
  exists sel rest lost, (forall p, sel p = true <-> wanted p) /\
    ps = map (fun w => [w]) (filter (fun w => sel [w]) ws) ++ rest /\
    Permutation (rest ++ Answers.opt_list lost) (filter sel (flat_map (tuples ws) (seq 2 (n - 1)))) /\
    (forall p, lost = Some p -> exists w d, p = repeat w d /\ 2 <= d <= n).
(** If the optimiser gives up after 100 passes: the single words are right. *)
Definition words_right (wanted : list word -> Prop) (ws : list word) (n : nat) (ps : list (list word)) : Prop :=
  exists sel rest, (forall p, sel p = true <-> wanted p) /\
    ps = map (fun w => [w]) (filter (fun w => sel [w]) ws) ++ rest /\
    Forall (fun p => 2 <= length p <= n /\ Forall (fun w => In w ws) p) rest.
(** The search for the query logs that its optimiser gives up. *)
Definition search_gives_up (ovf : bool) (u : unicode) (t : text) (ws : list word) (n : nat) : Prop :=
  exists q exs, parse_query u t = Ok (Parsed q) /\ mapM (from_ast ovf) (q_expressions q) = Ok exs /\ gives_up exs ws n.
Definition answer (ovf : bool) (u : unicode) (ls : list line) (t : text) (ws : list word) (n : nat) (ps : list (list word)) : Prop :=
  words_right (wanted ls) ws n ps /\ (n <= 1 \/ ~ search_gives_up ovf u t ws n -> right_answer (wanted ls) ws n ps).

(** ** Where it is told *)
(** The body of an HTTP request: the answer as far as wanted, or, if there is a deadline, the beginning
    of it and a note. The request returns if the search is given enough steps. *)
Definition http_right (s : server) (ls : list line) (t : text) (full : list (list word)) (pt : bool) : Prop :=
  let found := firstn (results_wanted ls (if pt then 15 else 300)) full in
  (forall d body, snd (http_request s d t pt) = Ok body ->
    body = listing (sv_flat s) pt found \/ d <> None /\ exists n, body = listing (sv_flat s) pt (firstn n found) ++ timeout_note pt) /\
  exists F, forall fuel k d, F <= fuel -> F <= k -> exists body, snd (http_request (patient s fuel k) d t pt) = Ok body.
(** The matches sent in a websocket session: a beginning of the answer, all of it if the client is told
    that the search is complete; and that is what happens if nothing goes wrong. *)
Definition socket_right (s : server) (ls : list line) (t : text) (full : list (list word)) (c : client) : Prop :=
  let found := firstn (results_wanted ls 300) full in
  (exists n, sent_matches (trace s (Socket c)) = firstn n found) /\
  (forall m, In (Sent (SComplete m)) (trace s (Socket c)) -> sent_matches (trace s (Socket c)) = found) /\
  ((forall i, send_ok c i = true /\ gone c i = false /\ over_time c i = false /\ time_left c i = None) ->
    exists F, forall fuel k, F <= fuel -> F <= k ->
      sent_matches (trace (patient s fuel k) (Socket c)) = found /\ exists m, In (Sent (SComplete m)) (trace (patient s fuel k) (Socket c))).
