(** Property C73: messages and lines of JSON can be read back. *)
From Coq Require Import String Lia ZArith.
From Verif Require Import PropApps AppsProofs JsonProofs.
Local Open Scope list_scope.

(** Every message is the JSON text of the object documented for it, in one line without control characters. *)
Theorem C73_json : forall r, json_of (object_of r) (write r) /\ Forall (fun c => (32 <= c)%N) (write r).
Proof. intros r. split; [apply message_json | apply message_visible]. Qed.
Print Assumptions C73_json.
(** The page gets what the server said: statuses, log lines, the texts and scores of the words of a match. *)
Theorem C73_page_reads : forall r, (forall t, r = Status t -> t <> []) -> onmessage (write r) = Some (told_of r).
Proof. exact message_read. Qed.
Print Assumptions C73_page_reads.
(** It does not depend on how the server lays the message out: with white space where JSON allows it, and with any
    of the ways to write a character, the page gets the same. *)
Theorem C73_any_layout : forall r x, (forall t, r = Status t -> t <> []) -> laid_out (object_of r) x -> onmessage x = Some (told_of r).
Proof. exact any_layout. Qed.
Print Assumptions C73_any_layout.
(** And nothing that is no JSON is taken for a message. *)
Theorem C73_only_json : forall x, (forall v, json_parse x = Some v <-> laid_out v x) /\ (forall g, onmessage x = Some g -> exists v, laid_out v x).
Proof. exact (fun x => conj (parse_iff x) (message_laid x)). Qed.
Print Assumptions C73_only_json.
Example C73_any_layout_met : exists x, laid_out (object_of (Log (str "J/"))) (str " {" ++ [9%N] ++ [34%N] ++ str "log" ++ 34%N :: str ": {" ++ 10%N :: x ++ [13%N] ++ str "} }") /\
  x = [34%N] ++ str "\u006d" ++ str "essage" ++ [34%N] ++ str " : " ++ [34%N] ++ str "\u004a\/" ++ [34%N].
Proof. exact layout_met. Qed.
(** The body for a query that was posted: a line for every match, in order, that holds it; and, after the last of
    these, the note of a timeout. *)
Theorem C73_body : forall s d t q dict x rs body, sv_flat s = flatten_phrase -> in_order s ->
  parse_query (sv_unicode s) t = Ok (Parsed q) -> words_for (sv_lists s) q dict ->
  question_of (sv_ovf s) q dict 300 x -> answered x rs -> snd (http_request s d t false) = Ok body ->
  exists n lines rest, Forall2 (fun p l => json_of (match_object p) l /\ onmessage l = Some (GotMatch (map (fun w => (w_text w, w_score w)) p))) (firstn n (reported rs)) lines /\
    text_lines body (lines ++ rest) /\
    (rest = [] /\ firstn n (reported rs) = reported rs \/ d <> None /\ rest = [str "# Timeout after 150s"]).
Proof.
  intros s d t q dict x rs body E H0 H1 H2 H3 H4 H5. destruct (C47_http_body s d t false q dict x rs body H0 H1 H2 H3 H4 H5) as [B | (D & n & B)]; rewrite E in B.
  - exists (length (reported rs)), (map flatten_phrase (reported rs)), []. rewrite firstn_all, app_nil_r. split; [apply lines_read |]. split; [rewrite B; apply listing_lines | left; auto].
  - exists n, (map flatten_phrase (firstn n (reported rs))), [str "# Timeout after 150s"]. split; [apply lines_read |]. split; [| right; auto]. rewrite B. apply lines_app; [apply listing_lines |].
    apply (lines_one (str "# Timeout after 150s") [] []); [| constructor]. intros H. cbn in H. repeat (destruct H as [H | H]; [discriminate H |]). contradiction.
Qed.
Print Assumptions C73_body.
(** A match with quotes, a backslash, a newline and letters outside ASCII *)
Example C73_witness : onmessage (flatten_phrase [mkWord 0 [] (str "a b") 12; mkWord 0 [] [34; 10; 92; 5; 233; 128512]%N 1000000]) =
    Some (GotMatch [(str "a b", 12%N); ([34; 10; 92; 5; 233; 128512]%N, 1000000%N)]) /\
  flatten_phrase [mkWord 3 [] (str "cat") 40] = str "{" ++ write_string (str "match") ++ str ":{" ++ write_string (str "phrase") ++ str ":[{" ++ write_string (str "text") ++ str ":" ++ write_string (str "cat") ++ str "," ++ write_string (str "score") ++ str ":40}]}}" /\
  write_string (str "cat") = 34%N :: str "cat" ++ [34%N].
Proof. vm_compute. auto. Qed.
