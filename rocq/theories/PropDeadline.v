(** Property C58: progress under deadlines. *)
From Coq Require Import String.
From Verif Require Import WaitProofs PropApps.
Local Open Scope list_scope.

(** ** C58: how often a query can time out *)
(** As long as no deadline has passed when its call begins, at most [N] calls time out, one for each word
    of the wordlist if only single words are asked for. With more calls than that the whole run is
    reported. *)
Theorem C58_timeouts_bounded : forall es exs wl dl rl rs0,
  compiled_all es exs -> sorted_words wl -> query_run exs wl dl rl rs0 ->
  exists N, (dl <= 1 -> N = length wl) /\ forall fuel ev ds ev' rs,
    fresh exs wl dl rl ev -> Forall (fun d => d <> Some 0) ds -> calls fuel ds ev = Ok (ev', rs) ->
    timeouts rs <= N /\
    (N + length rs0 <= length ds -> exists k, filter no_timeout rs = rs0 ++ repeat (RComplete CalledRepeatedly) k).
Proof. exact calls_end. Qed.
Print Assumptions C58_timeouts_bounded.

(** A deadline that has passed when the call begins: nothing is done, however often it is tried. *)
Theorem C58_passed_deadline_stalls : forall exs wl dl rl ev fuel k,
  fresh exs wl dl rl ev -> wl <> [] -> rl <> Some 0 ->
  calls fuel (repeat (Some 0) k) ev = Ok (ev, repeat RTimeout k).
Proof. intros exs wl dl rl ev fuel k H1 H2 H3. exact (passed_forever exs wl dl rl ev fuel H1 H2 H3 k). Qed.
Print Assumptions C58_passed_deadline_stalls.

(** A session whose client waits and whose turns begin before their deadlines: after enough turns it has ended,
    and the client has been told everything; or the progress report, asked for after a timeout, has
    panicked. *)
Theorem C58_sessions_end : forall s c t q dict x rs, in_order s ->
  first_message c = Some (Some t) -> parse_query (sv_unicode s) t = Ok (Parsed q) -> words_for (sv_lists s) q dict ->
  question_of (sv_ovf s) q dict 300 x -> answered x rs ->
  (forall i, send_ok c i = true /\ gone c i = false /\ over_time c i = false /\ time_left c i <> Some 0) ->
  exists F K, forall fuel k, F <= fuel -> K <= k ->
    (exists ms, trace (patient s fuel k) (Socket c) = [TotalAdd; ActiveAdd] ++ map Sent (opening q ++ ms) ++ [ActiveSub] /\
       filter not_progress ms = whole_story (sv_log_lines s) rs) \/
    (snd (socket (patient s fuel k) c) = Panicked /\
     exists ev ds ev' rs', fresh (qu_exprs x) (qu_words x) (qu_length x) (qu_limit x) ev /\ calls fuel ds ev = Ok (ev', rs' ++ [RTimeout]) /\
       progress (sv_ovf s) (sv_est s) ev' = Panic).
Proof.
  intros s c t q dict x rs H0 H1 H2 H3 Hq Hr Hc. pose proof (question_sorted _ _ _ _ _ _ H0 H2 H3 Hq) as Hs. destruct Hq as (E1 & E2 & E3 & E4).
  apply (query_words_sound _ _ _ (proj1 H0)) in H3. unfold answered in Hr. rewrite E2, E3, E4 in *.
  destruct (session_ends _ (sv_est s) (sv_log_lines s) _ _ _ _ _ _ _ _ H1 H2 H3 E1 Hs Hr Hc) as (F & K & HF). exists F, K. intros fuel k Hf Hk. unfold trace, socket, patient. cbn [sv_ovf sv_unicode sv_lists sv_est sv_log_lines sv_fuel sv_turns].
  destruct (HF fuel k Hf Hk) as [(ms & G1 & G2)|G]; [left; exists ms; rewrite G1; auto|right; exact G].
Qed.
Print Assumptions C58_sessions_end.

(** Five words, every deadline expires at the second look: one call times out. *)
Example C58_hypotheses_met : exists ev ev', compiled_all sample_exprs (map compile sample_exprs) /\ sorted_words sample_words /\ fresh (map compile sample_exprs) sample_words 3 None ev /\
  calls 100 (repeat (Some 1) 6) ev = Ok (ev', [RMatch [tword 0 [0; 1; 2]]; RTimeout; RLogs false; RMatch [tword 0 [0]; tword 0 [1; 2]]; RMatch [tword 1 [0; 1]; tword 1 [2]];
     RMatch [tword 0 [0]; tword 2 [1]; tword 1 [2]]]).
Proof.
  eexists _, _. split; [apply compile_ok; [discriminate|vm_compute; reflexivity]|]. split; [apply sorted_b_ok; vm_compute; reflexivity|]. split; [vm_compute; reflexivity|vm_compute; reflexivity].
Qed.
Definition hurried_client : client := mkClient (Some (Some (str "ab"))) (fun _ => true) (fun _ => false) (fun _ => false) (fun _ => Some 1).
Example C58_session_met : forall u, trace (sample_server u) (Socket hurried_client) =
  [TotalAdd; ActiveAdd; Sent SRunning; Sent SParsed; Sent SExpression; Sent (SMatch [text_word (str "ab")]); Sent SProcessing; Sent SLog; Sent (SMatch [text_word (str "a"); text_word (str "b")]);
   Sent (SComplete (AllPhrases 2 10)); ActiveSub].
Proof. intros u. vm_compute. reflexivity. Qed.
