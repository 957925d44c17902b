(** The shape of the tables a search works on: what indices their accesses may use. A table of a matcher
    is a three-dimensional bit set with a row for every state and every number of edits up to the limit,
    over the states (matcher.rs:85, 107-144); it is read and written without checks (bitset.rs). *)
From Verif Require Export Query.

(** A set of states of an automaton with [n] states. *)
Definition states_below (n : nat) (s : N) : Prop := forall j, mem s j = true -> j < n.
(** One set for each number of edits less than [k]. *)
Definition row_fits (n k : nat) (r : row) : Prop := length r = k /\ Forall (states_below n) r.
(** One row for each state. *)
Definition table_fits (n k : nat) (T : table) : Prop := length T = n /\ Forall (row_fits n k) T.

Definition phrase_matcher_fits (pm : phrase_matcher) : Prop :=
  1 <= states_len pm /\ 1 <= fuzz_limit pm /\ states_below (states_len pm) (start_states pm) /\
  Forall (fun c => table_fits (states_len pm) (fuzz_limit pm) (c_table c)) (classes pm).
(** While words are looked at, the automaton is that of the expression. *)
Definition word_matcher_fits (m : word_matcher) : Prop :=
  phrase_matcher_fits (wm_pm m) /\
  states_len (wm_pm m) = length (states (pm_ex (wm_pm m))) /\ fuzz_limit (wm_pm m) = S (fuzz (pm_ex (wm_pm m))) /\
  Forall (table_fits (states_len (wm_pm m)) (fuzz_limit (wm_pm m))) (tabs m).
Definition layer_fits (pms : list phrase_matcher) (l : layer) : Prop :=
  Forall2 (fun pm r => row_fits (states_len pm) (fuzz_limit pm) r) pms (l_rows l).
Definition search_fits (p : qphase) : Prop :=
  match p with
  | QWord ms _ => Forall word_matcher_fits ms
  | QPhrase p => Forall phrase_matcher_fits (p_matchers p) /\ Forall (layer_fits (p_matchers p)) (p_layers p)
  | QDone => True
  end.
