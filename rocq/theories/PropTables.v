(** Property C76 (matcher.rs, query.rs). *)
From Verif Require Import TablesProofs.
From Verif Require Import Answers.

(** C76: whatever a search has done, calls with deadlines included, the sets it holds are the ones
    its indices are meant for: for every automaton, in every table and every row, one set for each
    number of edits up to the limit, of states of the automaton as it is now. So the accesses at a
    state, an edit count up to the limit and a state of the automaton stay inside the allocations
    (C75 says what happens to others). *)
Theorem C76_search_tables : forall es exs wl dl rl fuel ds ev ev' rs,
  compiled_all es exs -> fresh exs wl dl rl ev -> calls fuel ds ev = Ok (ev', rs) ->
  search_fits (q_phase ev').
Proof.
  intros es exs wl dl rl fuel ds ev ev' rs Hc. destruct (compiled_good _ _ Hc) as [_ H].
  exact (search_tables fuel exs wl dl rl ds ev ev' rs H).
Qed.
Print Assumptions C76_search_tables.

(** The sample query interrupted among words and among phrases; there the automaton of [ab*] has
    lost one of its states. *)
Example C76_hypotheses_met : exists ev ev1 ev2 r1 r2,
  compiled_all sample_exprs (map compile sample_exprs) /\ fresh (map compile sample_exprs) sample_words 3 None ev /\
  calls 100 [Some 1; Some 0] ev = Ok (ev1, r1) /\ calls 100 [None; None; None] ev = Ok (ev2, r2) /\
  match q_phase ev1 with
  | QWord ms _ => map (fun m => (states_len (wm_pm m), fuzz_limit (wm_pm m), length (tabs m), length (classes (wm_pm m)))) ms = [(4, 1, 5, 4); (4, 1, 5, 3)]
  | _ => False
  end /\
  match q_phase ev2 with
  | QPhrase p => map (fun pm => (states_len pm, fuzz_limit pm, length (classes pm))) (p_matchers p) = [(4, 1, 7); (3, 1, 3)] /\ map (fun l => map (@length N) (l_rows l)) (p_layers p) = [[1; 1]; [1; 1]; [1; 1]; [1; 1]]
  | _ => False
  end.
Proof.
  assert (Hc : compiled_all sample_exprs (map compile sample_exprs)) by (apply compile_ok; [discriminate|vm_compute; reflexivity]).
  eexists _, _, _, _, _. split; [exact Hc|]. split; [vm_compute; reflexivity|]. split; [vm_compute; reflexivity|]. split; [vm_compute; reflexivity|]. split; [vm_compute; reflexivity|]. vm_compute. split; reflexivity.
Qed.
