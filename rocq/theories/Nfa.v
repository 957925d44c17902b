(** Model of the compilation of expressions: noodle/src/expression.rs:6-436.
    A bitset of states ([BitSet1D]) is a bit mask ([N]) together with the number of blocks of its
    allocation, which is the same for all states of a vector and therefore a parameter [nblk] of the
    functions below; every unchecked access is guarded by [chk], which is [UB] outside of the
    allocation. [BitsetProofs] relates masks and blocks. *)
From Verif Require Export Base Words Ast.

(** expression.rs:8 *)
Definition MAX_SET_SIZE : nat := 16 * 1024.

(** expression.rs:10-16 *)
Record state := mkState { eps : N; chars : charset; next : nat }.

(** expression.rs:18-29 *)
Definition new_transition (cs : charset) (nx : nat) : state := mkState 0 cs nx.
Definition state_new : state := new_transition EMPTY 0.

Definition set_eps (x : state) (e : N) : state := mkState e (chars x) (next x).
Definition set_next (x : state) (n : nat) : state := mkState (eps x) (chars x) n.

(** An access to element [i] of a bitset of [nblk] blocks (bitset.rs:275-279, 341-350:
    [get_unchecked]). *)
Definition chk (nblk i : nat) : outcome unit := if i <? 32 * nblk then Ok tt else UB.

(** [states[i].epsilon_states_bitset_mut().insert(j)] *)
Definition insert_eps (nblk : nat) (st : list state) (i j : nat) : outcome (list state) :=
  do x <- index st i;
  do _ <- chk nblk j;
  Ok (upd st i (set_eps x (ins (eps x) j))).

(** The blocks of a scratch set, expression.rs:25 *)
Definition max_blocks : nat := 512.

(** expression.rs:97-101 and 123-128: the body of the loops over the alternatives and the terms;
    [build] is the recursive call. *)
Definition branch_step (build : ast -> list state -> outcome (list state)) (initial_len : nat)
    (acc : list state * list nat) (alt : ast) : outcome (list state * list nat) :=
  let '(st, end_indexes) := acc in
  let next_index := length st in
  do st1 <- insert_eps max_blocks st initial_len next_index;
  do st2 <- build alt st1;
  do e <- checked_sub (length st2) 1;
  Ok (st2, end_indexes ++ [e]).

(** expression.rs:104-112: repoint the terminal states of the alternatives *)
Definition repoint (next_index : nat) (st : list state) (end_index : nat) : outcome (list state) :=
  do x <- index st end_index;
  do _ <- chk max_blocks (end_index + 1);
  do x' <- (if mem (eps x) (end_index + 1)
            then do _ <- chk max_blocks next_index;
                 Ok (set_eps x (ins (rem (eps x) (end_index + 1)) next_index))
            else Ok x);
  Ok (upd st end_index (set_next x' next_index)).

(** expression.rs:131-147: add the exits of a substring *)
Definition add_exit (next_index : nat) (st : list state) (end_index : nat) : outcome (list state) :=
  do x <- index st end_index;
  do _ <- chk max_blocks (end_index + 1);
  do st1 <- (if mem (eps x) (end_index + 1)
             then insert_eps max_blocks st end_index next_index
             else Ok st);
  if N.eqb (chars x) EMPTY then Ok st1
  else if next x =? next_index then Ok st1
  else insert_eps max_blocks st1 (next x) next_index.

(** [i <= max.unwrap_or( *min) - *min] (expression.rs:166) on usize. When the subtraction
    underflows a build with overflow checks panics ([ovf = true]), another build gets a number close
    to 2^64, which no index exceeds. *)
Definition copy_entry (ovf : bool) (i min : nat) (max : option nat) : outcome bool :=
  let m := match max with Some m => m | None => min end in
  if min <=? m then Ok (i <=? m - min) else if ovf then Panic else Ok true.

(** expression.rs:165-174: one copy of the repeated term *)
Definition repeat_step (ovf : bool) (build : ast -> list state -> outcome (list state))
    (initial_len : nat) (term : ast) (min : nat) (max : option nat)
    (acc : list state * nat) (i : nat) : outcome (list state * nat) :=
  let '(st, _) := acc in
  do entry <- copy_entry ovf i min max;
  do st1 <- (if entry then insert_eps max_blocks st initial_len (length st) else Ok st);
  let final_term_index := length st1 in
  do st2 <- build term st1;
  Ok (st2, final_term_index).

(** expression.rs:86-193. [ovf]: built with overflow checks. *)
Fixpoint build_states (ovf : bool) (a : ast) (st : list state) {struct a} : outcome (list state) :=
  let initial_len := length st in
  match a with
  | CharClass cs => Ok (st ++ [new_transition cs (initial_len + 1)])
  | Alternatives alts =>
      do (st1, end_indexes) <-
        foldM (branch_step (build_states ovf) initial_len) alts (st ++ [state_new], []);
      foldM (repoint (length st1)) end_indexes st1
  | Sequence terms => foldM (fun st t => build_states ovf t st) terms st
  | Substring terms =>
      do (st1, end_indexes) <-
        foldM (branch_step (build_states ovf) initial_len) terms (st ++ [state_new], []);
      foldM (add_exit (length st1)) end_indexes st1
  | Repetition term mn mx =>
      match mn, mx with
      | 0, Some 0 => Ok st
      | 1, Some 1 => build_states ovf term st
      | _, _ =>
          let repeats := Nat.max 1 (Nat.max mn (match mx with Some m => m | None => mn end)) in
          do (st1, final_term_index) <-
            foldM (repeat_step ovf (build_states ovf) initial_len term mn mx) (seq 0 repeats)
              (st ++ [state_new], 0);
          let final_index := length st1 in
          do st2 <- insert_eps max_blocks (st1 ++ [state_new]) final_index (final_index + 1);
          do st3 <- (if mn =? 0 then insert_eps max_blocks st2 initial_len final_index else Ok st2);
          match mx with
          | None => insert_eps max_blocks st3 final_index final_term_index
          | Some _ => Ok st3
          end
      end
  | Anagram _ _ => Panic
  end.

(** expression.rs:225-229: one pass over all states, accumulating in [bs] *)
Definition closure_pass (nblk : nat) (st : list state) (e : N) : outcome N :=
  foldM (fun bs p => do _ <- chk nblk (fst p);
                     Ok (if mem bs (fst p) then N.lor bs (eps (snd p)) else bs))
        (combine (seq 0 (length st)) st) e.

(** expression.rs:220-234. [states[i]] itself is read by the pass, so it is written back in every
    round. *)
Fixpoint closure_loop (fuel nblk : nat) (st : list state) (i : nat) : outcome (list state) :=
  match fuel with
  | 0 => OutOfFuel
  | S fuel' =>
      do x <- index st i;
      do bs <- closure_pass nblk st (eps x);
      if N.eqb (eps x) bs then Ok st
      else closure_loop fuel' nblk (upd st i (set_eps x bs)) i
  end.

(** expression.rs:212-236 *)
Definition closure_state (nblk : nat) (st : list state) (i : nat) : outcome (list state) :=
  do st1 <- insert_eps nblk st i i;
  closure_loop (32 * nblk + 1) nblk st1 i.
Definition epsilon_transitive_closure (nblk : nat) (st : list state) : outcome (list state) :=
  foldM (closure_state nblk) (seq 0 (length st)) st.

(** expression.rs:338-380: the bookkeeping of prune_epsilon_pairs *)
Record prune_state := mkPrune {
  state_map : list nat;
  state_map_from : list (option nat);
  deleted : list nat
}.

(** expression.rs:363-379: the first state after [i] that looks like [similar] *)
Fixpoint find_similar (similar : N) (i : nat) (l : list (nat * state)) : option nat :=
  match l with
  | [] => None
  | (i2, x2) :: l' =>
      if i2 <=? i then find_similar similar i l'
      else if N.eqb similar (eps x2) then Some i2
      else find_similar similar i l'
  end.

(** expression.rs:343-380: one iteration *)
Definition prune_step (nblk : nat) (st : list state) (p : prune_state) (ix : nat * state)
  : outcome prune_state :=
  let '(i, x) := ix in
  do m <- index (state_map p) i;
  do m' <- checked_sub m (length (filter (fun d => d <? i) (deleted p)));
  let p := mkPrune (upd (state_map p) i m') (state_map_from p) (deleted p) in
  if i =? 0 then Ok p
  else if negb (N.eqb (chars x) EMPTY) then Ok p
  else
    do _ <- chk nblk i;
    match find_similar (rem (eps x) i) i (combine (seq 0 (length st)) st) with
    | None => Ok p
    | Some i2 =>
        Ok (mkPrune (upd (state_map p) i2 i)
              (map (fun s => match s with
                             | Some s => if s =? i then Some i2 else Some s
                             | None => None
                             end)
                   (upd (state_map_from p) i2 None))
              (deleted p ++ [i2]))
    end.

Definition prune_init (n : nat) : prune_state :=
  mkPrune (seq 0 n) (map Some (seq 0 n)) [].

(** The number of blocks of a bitset, bitset.rs:125-134 *)
Definition blocks_for (n : nat) : nat := n / 32 + (if 0 <? n mod 32 then 1 else 0).

(** expression.rs:395-397: rename the members of a set through a table *)
Definition rename_set (nblk : nat) (f : nat -> outcome nat) (e : N) : outcome N :=
  foldM (fun acc s => do t <- f s; do _ <- chk nblk t; Ok (ins acc t)) (ones e) 0%N.

(** expression.rs:389-405: one kept slot *)
Definition prune_slot (nblk : nat) (st : list state) (p : prune_state) (from : nat) : outcome state :=
  do x <- index st from;
  do e <- rename_set nblk (index (state_map p)) (eps x);
  do nx <- index (state_map p) (next x);
  Ok (mkState e (chars x) nx).

Definition somes {A} (l : list (option A)) : list A :=
  flat_map (fun o => match o with Some a => [a] | None => [] end) l.

(** expression.rs:387-405. A subtraction that underflows is a panic also in a release build: the
    wrapped number fails the assertion. *)
Definition prune_finish (st : list state) (p : prune_state) : outcome (list state * nat) :=
  do new_len <- checked_sub (length st) (length (deleted p));
  if forallb (fun s => s <? new_len) (state_map p) then
    let nblk := blocks_for new_len in
    do st' <- mapM (prune_slot nblk st p) (somes (state_map_from p));
    Ok (st', nblk)
  else Panic.

(** expression.rs:338-406. Returns the new states and the block count of their sets. *)
Definition prune_epsilon_pairs (nblk : nat) (st : list state) : outcome (list state * nat) :=
  do p <- foldM (prune_step nblk st) (combine (seq 0 (length st)) st) (prune_init (length st));
  prune_finish st p.

(** expression.rs:251-253 *)
Definition bitset_only_contains (e : N) (i : nat) : bool :=
  N.eqb e 0 || (mem e i && (length (ones e) =? 1)).

(** expression.rs:257-285. The evaluation of the conjunction stops at the first false conjunct; the
    unchecked accesses of the conjuncts are guarded by [chk] in the same order. *)
Definition is_a_pair (nblk : nat) (eps_index char_index : nat) (st : list state) : outcome bool :=
  do e <- index st eps_index;
  do c <- index st char_index;
  do _ <- chk nblk eps_index;
  do n <- index st (next c);
  let allowed := N.lor (ins (eps c) eps_index) (eps n) in
  if char_index =? 0 then Ok false
  else if negb (N.eqb (chars e) EMPTY) then Ok false
  else if next c =? eps_index then Ok false
  else if next c =? char_index then Ok false
  else if negb (N.eqb (eps c) 0) && negb (char_index <? 32 * nblk) then UB
  else if negb (bitset_only_contains (eps c) char_index) then Ok false
  else
    do _ <- chk nblk char_index;
    if negb (mem (eps e) char_index) then Ok false
    else
      do _ <- chk nblk (next c);
      if negb (mem (eps e) (next c)) then Ok false
      else Ok (subset (eps e) allowed).

(** expression.rs:294-300 *)
Definition remap (eps_index char_index i : nat) : nat :=
  if i <? char_index then i
  else if i =? char_index then (if eps_index <? char_index then eps_index else eps_index - 1)
  else i - 1.

(** expression.rs:288-317 *)
Definition collapse (nblk : nat) (eps_index char_index : nat) (st : list state)
  : outcome (list state) :=
  if eps_index =? char_index then Panic
  else
    do e <- index st eps_index;
    do c <- index st char_index;
    let st1 := upd st eps_index (mkState (eps e) (chars c) (next c)) in
    do st2 <- mapM (fun x =>
                      do e' <- rename_set nblk (fun i => Ok (remap eps_index char_index i)) (eps x);
                      Ok (mkState e' (chars x) (remap eps_index char_index (next x)))) st1;
    Ok (removeNth st2 char_index).

(** expression.rs:323-331: the first [j] for which a pair is found *)
Fixpoint find_pair (nblk : nat) (i : nat) (js : list nat) (st : list state)
  : outcome (option (nat * nat)) :=
  match js with
  | [] => Ok None
  | j :: js' =>
      do b <- is_a_pair nblk i j st;
      if (b : bool) then Ok (Some (i, j))
      else
        do b' <- is_a_pair nblk j i st;
        if (b' : bool) then Ok (Some (j, i)) else find_pair nblk i js' st
  end.

(** expression.rs:321-333: each iteration either removes a state or increments [i] *)
Fixpoint collapse_loop (fuel nblk : nat) (i : nat) (st : list state) : outcome (list state) :=
  if i <? length st then
    match fuel with
    | 0 => OutOfFuel
    | S fuel' =>
        do r <- find_pair nblk i (seq 0 (length st)) st;
        match r with
        | Some (e, c) => do st' <- collapse nblk e c st; collapse_loop fuel' nblk i st'
        | None => collapse_loop fuel' nblk (S i) st
        end
    end
  else Ok st.
Definition collapse_epsilon_char_pairs (nblk : nat) (st : list state) : outcome (list state) :=
  collapse_loop (length st) nblk 0 st.

(** expression.rs:411-416; bitset.rs:295-304: [resize] asserts that all members fit *)
Definition shrink_bitsets (nblk : nat) (st : list state) : outcome (list state * nat) :=
  if forallb (fun x => forallb (fun i => i <? length st) (ones (eps x))) st
  then Ok (st, blocks_for (length st)) else Panic.

(** expression.rs:418-435. Returns the optimised states and the block count of their sets. *)
Fixpoint optimize_loop (fuel nblk : nat) (st : list state) : outcome (list state * nat) :=
  match fuel with
  | 0 => OutOfFuel
  | S fuel' =>
      do st1 <- epsilon_transitive_closure nblk st;
      do (st2, nblk2) <- prune_epsilon_pairs nblk st1;
      do st3 <- collapse_epsilon_char_pairs nblk2 st2;
      if length st3 =? length st then Ok (st3, nblk2)
      else
        do (st4, nblk4) <- shrink_bitsets nblk2 st3;
        optimize_loop fuel' nblk4 st4
  end.
Definition optimize_states (st : list state) : outcome (list state * nat) :=
  optimize_loop (S (length st)) max_blocks st.

(** expression.rs:40-48 ([text] is only displayed) *)
Record expression := mkExpression {
  states : list state;
  ignore_word_boundaries : bool;
  ignore_punctuation : bool;
  fuzz : nat
}.

Definition unwrap_or {A} (o : option A) (d : A) : A := match o with Some a => a | None => d end.

(** expression.rs:62-64: the automaton before optimisation *)
Definition build_all (ovf : bool) (a : ast) : outcome (list state) :=
  do st <- build_states ovf a [];
  Ok (st ++ [new_transition (charset_of WORD_END) (length st)]).

(** expression.rs:57-77 *)
Definition from_ast (ovf : bool) (e : expr_ast) : outcome expression :=
  do st <- build_all ovf (root e);
  do (st', _) <- optimize_states st;
  Ok {| states := st';
        ignore_word_boundaries := negb (unwrap_or (explicit_word_boundaries (options e)) false);
        ignore_punctuation := negb (unwrap_or (explicit_punctuation (options e)) false);
        fuzz := unwrap_or (opt_fuzz (options e)) 0 |}.
