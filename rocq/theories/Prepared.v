(** Specification of the matchers of the phrase search: how they come about, and what they accept. *)
From Verif Require Export Query Answers.

(** A matcher for [ex] that has seen the whole wordlist and has then been optimised any number of times
    (query.rs:315-368): for the words [ws] and for phrases of at most [md] words. [opt]: at least once. *)
Inductive prepared (ex : expression) (wl : list word) : bool -> list word -> nat -> word_matcher -> Prop :=
| prepared_words ml md m r :
    Forall (fun w => length (w_chars w) < ml) wl ->
    iter_last false wl (wm_new ex ml) = Ok (m, r) ->
    prepared ex wl false wl md m
| prepared_optimized opt ws md m K q m' did :
    prepared ex wl opt ws md m ->
    q <> [] -> Forall (fun ph => depth ph <= md) q ->
    optimize_for_wordlist m (filter K (alive m)) q = Ok (m', did) ->
    prepared ex wl true (filter K (alive m)) (max_list (map depth q)) m'.

(** The row of a matcher after the words at the positions [ps] of its list. *)
Fixpoint follow (pm : phrase_matcher) (ps : list nat) (r : row) : outcome row :=
  match ps with
  | [] => Ok r
  | i :: ps' => do r' <- step_by_word_index pm i r (zero_row (fuzz_limit pm)); follow pm ps' r'
  end.
(** The matcher accepts the phrase at these positions. *)
Definition takes (pm : phrase_matcher) (ps : list nat) (b : bool) : Prop :=
  exists r, follow pm ps (start_row (fuzz_limit pm) (start_states pm)) = Ok r /\ has_success_state pm r = b.
