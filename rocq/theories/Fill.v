(** Model of [fill_transition_table] and [char_transitions]: noodle/src/expression.rs:438-589.
    A table [BitSet3D] is the list over source states of the list over fuzz levels of sets of
    destination states ([C01] relates rows of blocks to sets). Indexing [self.states] by a successor
    is modelled with a default, because the successors of a compiled expression are states
    ([compiled_lemma]). *)
From Verif Require Export Base Words Ast Nfa.

Definition row := list N.
Definition table := list row.

(** expression.rs:439-441 *)
Definition epsilon_states (ex : expression) (i : nat) : N :=
  match nth_error (states ex) i with Some x => eps x | None => 0%N end.

(** expression.rs:566-589 *)
Definition char_transitions (ex : expression) (cs : charset) (start : N) : N :=
  if N.eqb start 0 then 0%N
  else fold_left (fun acc p =>
         let '(si, x) := p in
         if negb (mem start si) then acc
         else if is_intersecting cs (chars x) then N.lor acc (epsilon_states ex (next x)) else acc)
       (combine (seq 0 (length (states ex))) (states ex)) 0%N.

(** expression.rs:483-485 *)
Definition ignored (ex : expression) (c : char) : bool :=
  (ignore_word_boundaries ex && (c =? WORD_END)) || (ignore_punctuation ex && (c =? PUNCTUATION)).

(** expression.rs:498-514: the row without additional edits *)
Definition direct_row (ex : expression) (c : char) (cur : row) : row :=
  map (fun s => if N.eqb s 0 then 0%N else char_transitions ex (charset_of c) s) cur.

(** expression.rs:523-553: the loop over fuzz levels [f], [f+1], ... ; [cur] and [nxt] are the
    current and the next row from level [f] and [f+1] on, [sup] the accumulated superset *)
Fixpoint fuzz_row (ex : expression) (c : char) (cur nxt : row) (sup : N) : row :=
  match cur, nxt with
  | s :: cur', n :: nxt' =>
      if N.eqb s 0 then n :: fuzz_row ex c cur' nxt' sup
      else
        let change_set := char_transitions ex LETTERS s in
        let insertion_set := char_transitions ex (charset_of c) change_set in
        let n1 := N.lor (N.lor (N.lor n s) change_set) insertion_set in
        let n2 := N.ldiff n1 sup in
        n2 :: fuzz_row ex c cur' nxt' (N.lor sup n2)
  | _, _ => nxt
  end.

(** expression.rs:496-553: one source state *)
Definition step_row (ex : expression) (c : char) (cur : row) : row :=
  let d := direct_row ex c cur in
  if forallb (fun s => N.eqb s 0) cur then d
  else match d with
       | d0 :: d' => d0 :: fuzz_row ex c cur d' 0%N
       | [] => []
       end.

Definition empty_row (r : row) : bool := forallb (fun s => N.eqb s 0) r.

(** expression.rs:470-474 *)
Definition n_start_states (ex : expression) (single_word_only : bool) : nat :=
  if single_word_only then 1 else length (states ex).

(** expression.rs:495-554: the rows from [n_start] on keep what they had *)
Definition step_table (ex : expression) (single : bool) (c : char) (cur nxt : table) : table :=
  let n := n_start_states ex single in
  map (step_row ex c) (firstn n cur) ++ skipn n nxt.

(** expression.rs:477-559. [i]: the current character index. *)
Fixpoint fill (ex : expression) (single : bool) (cs : list char) (i : nat) (tabs : list table)
  : outcome (list table * nat) :=
  match cs with
  | [] => Ok (tabs, i)
  | c :: cs' =>
      do cur <- index tabs i;
      do nxt <- index tabs (S i);
      if ignored ex c then fill ex single cs' (S i) (upd tabs (S i) cur)
      else
        let tabs' := upd tabs (S i) (step_table ex single c cur nxt) in
        if forallb empty_row (firstn (n_start_states ex single) cur) then Ok (tabs', i)
        else fill ex single cs' (S i) tabs'
  end.
(** expression.rs:462-467 on the slice of tables starting at [base] *)
Definition fill_transition_table (ex : expression) (single : bool) (cs : list char) (base : nat)
  (tabs : list table) : outcome (list table * nat) :=
  do (tabs', i) <- fill ex single cs base tabs;
  Ok (tabs', i - base).
