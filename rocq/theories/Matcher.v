(** Model of noodle/src/matcher.rs. An [IndexMap] from tables to classes is the list of its entries
    in insertion order, keys being distinct. Cells of tables are read with a default, because all
    indices are states and fuzz levels of the table ([WordPhase.shaped]). *)
From Verif Require Export Fill.

(** matcher.rs:107-114. Tranches are naturals. *)
Record wclass := mkClass { c_table : table; words_count : nat; min_tranche : nat }.

(** matcher.rs:74-95 *)
Record phrase_matcher := mkPM {
  pm_ex : expression;
  fuzz_limit : nat;
  states_len : nat;
  start_states : N;
  classes : list wclass;
  word_classes : list nat
}.

(** matcher.rs:18-59 *)
Record word_matcher := mkWM {
  wm_pm : phrase_matcher;
  alive : list word;
  tabs : list table;
  table_chars : list char;
  word_index : nat
}.

(** matcher.rs:116-123 *)
Record phase := mkPhase { depth : nat; tranche : nat; total_size : N }.

Definition empty_table (n limit : nat) : table := repeat (repeat 0%N limit) n.

Fixpoint row_eqb (x y : row) : bool :=
  match x, y with
  | [], [] => true
  | a :: x', b :: y' => N.eqb a b && row_eqb x' y'
  | _, _ => false
  end.
Fixpoint table_eqb (x y : table) : bool :=
  match x, y with
  | [], [] => true
  | a :: x', b :: y' => row_eqb a b && table_eqb x' y'
  | _, _ => false
  end.

(** [IndexMap::entry(..).index()] for a key that is present *)
Fixpoint find_table (T : table) (l : list wclass) (i : nat) : option nat :=
  match l with
  | [] => None
  | c :: l' => if table_eqb (c_table c) T then Some i else find_table T l' (S i)
  end.

(** matcher.rs:623-642 *)
Definition pm_new (ex : expression) : phrase_matcher :=
  let n := length (states ex) in
  let limit := fuzz ex + 1 in
  mkPM ex limit n (epsilon_states ex 0) [mkClass (empty_table n limit) 0 0] [].

(** matcher.rs:128-144 *)
Definition wm_new (ex : expression) (max_word_len : nat) : word_matcher :=
  mkWM (pm_new ex) [] (repeat (empty_table (length (states ex)) (fuzz ex + 1)) max_word_len) [] 0.

(** matcher.rs:771-779 *)
Definition add_word (c : wclass) (w : word) : wclass :=
  mkClass (c_table c) (S (words_count c)) (Nat.min (min_tranche c) (w_tranche w)).
Definition clear_class (c : wclass) : wclass := mkClass (c_table c) 0 0.

(** [classes.get_index_mut(i).unwrap().1.add_word(word)] *)
Definition class_add (cs : list wclass) (i : nat) (w : word) : outcome (list wclass) :=
  do c <- index cs i; Ok (upd cs i (add_word c w)).

(** matcher.rs:753-768 *)
Definition insert_word_table (pm : phrase_matcher) (w : word) (T : table) : outcome phrase_matcher :=
  match find_table T (classes pm) 0 with
  | Some i =>
      do cs <- class_add (classes pm) i w;
      Ok (mkPM (pm_ex pm) (fuzz_limit pm) (states_len pm) (start_states pm) cs (word_classes pm ++ [i]))
  | None =>
      Ok (mkPM (pm_ex pm) (fuzz_limit pm) (states_len pm) (start_states pm)
            (classes pm ++ [add_word (mkClass T 0 0) w]) (word_classes pm ++ [length (classes pm)]))
  end.

(** matcher.rs:214-220 *)
Fixpoint common_prefix (x y : list char) : nat :=
  match x, y with
  | a :: x', b :: y' => if a =? b then S (common_prefix x' y') else 0
  | _, _ => 0
  end.

(** matcher.rs:230-237: the cleared table with the epsilon states at fuzz 0 *)
Definition initial_table (pm : phrase_matcher) : table :=
  map (fun src => epsilon_states (pm_ex pm) src :: repeat 0%N (fuzz_limit pm - 1)) (seq 0 (states_len pm)).

(** Does any level of the row contain the state? (matcher.rs:263-270, 664-671) *)
Definition has_state (limit : nat) (r : row) (s : nat) : bool :=
  existsb (fun f => mem (nth f r 0%N) s) (seq 0 limit).

(** matcher.rs:209-270: one word. The flag tells whether the word matches on its own. *)
Definition process_word (single : bool) (m : word_matcher) (w : word)
  : outcome (word_matcher * bool) :=
  let pm := wm_pm m in
  let cs := w_chars w in
  let prefix_len := common_prefix cs (table_chars m) in
  do tabs1 <- (if prefix_len =? 0
               then do _ <- index (tabs m) 0; Ok (upd (tabs m) 0 (initial_table pm))
               else Ok (tabs m));
  do (tabs2, n) <- fill_transition_table (pm_ex pm) single (skipn prefix_len cs) prefix_len tabs1;
  let partial_len := prefix_len + n in
  let table_chars' := firstn partial_len cs in
  if partial_len <? length cs then
    Ok (mkWM pm (alive m) tabs2 table_chars' (S (word_index m)), false)
  else
    do T <- index tabs2 (length cs);
    do pm' <- insert_word_table pm w T;
    do r0 <- index T 0;
    Ok (mkWM pm' (alive m ++ [w]) tabs2 table_chars' (S (word_index m)),
        has_state (fuzz_limit pm) r0 (states_len pm - 1)).

(** A deadline: [None], or the number of looks at the clock that still see it unexpired. A deadline
    that has expired stays so. *)
Definition deadline := option nat.
Definition look (d : deadline) : bool * deadline :=
  match d with
  | None => (false, None)
  | Some 0 => (true, Some 0)
  | Some (S k) => (false, Some k)
  end.

(** matcher.rs:198-273: [ws], the words not processed yet; [count], how many have been seen in this
    call *)
Fixpoint next_loop (single : bool) (ws : list word) (count : nat) (d : deadline) (m : word_matcher)
  : outcome (word_matcher * option word * deadline) :=
  match ws with
  | [] => Ok (m, None, d)
  | w :: ws' =>
      let '(expired, d') := if count mod 256 =? 0 then look d else (false, d) in
      if (expired : bool) then Ok (m, None, d')
      else
        do (m', found) <- process_word single m w;
        if (found : bool) then Ok (m', Some w, d') else next_loop single ws' (S count) d' m'
  end.
(** matcher.rs:187-274 *)
Definition next_single_word (single : bool) (wl : list word) (d : deadline) (m : word_matcher)
  : outcome (word_matcher * option word * deadline) :=
  next_loop single (skipn (word_index m) wl) 0 d m.

(** matcher.rs:614-621 with [Iterator::last] / [count] (query.rs:245, 275): no deadline, until the
    words are used up. Each call that returns a word has consumed at least one. *)
Fixpoint drain (fuel : nat) (single : bool) (wl : list word) (m : word_matcher) (last : option word)
  : outcome (word_matcher * option word) :=
  match fuel with
  | 0 => OutOfFuel
  | S fuel' =>
      do (m', r, _) <- next_single_word single wl None m;
      match r with
      | None => Ok (m', last)
      | Some w => drain fuel' single wl m' (Some w)
      end
  end.
Definition iter_last (single : bool) (wl : list word) (m : word_matcher)
  : outcome (word_matcher * option word) :=
  drain (S (length wl)) single wl m None.

(** ** Phrases *)
Definition cell (T : table) (s f : nat) : N := nth f (nth s T []) 0%N.

(** matcher.rs:673-690. [prev] and [nxt] are distinct. *)
Definition step (limit : nat) (T : table) (prev nxt : row) : row :=
  fold_left (fun nxt f =>
    fold_left (fun nxt dst =>
      fold_left (fun nxt df => upd nxt (f + df) (N.lor (nth (f + df) nxt 0%N) (cell T dst df)))
        (seq 0 (limit - f)) nxt)
      (ones (nth f prev 0%N)) nxt)
    (seq 0 limit) nxt.

Definition zero_row (limit : nat) : row := repeat 0%N limit.
(** [start] at fuzz 0 *)
Definition start_row (limit : nat) (start : N) : row := upd (zero_row limit) 0 start.

(** matcher.rs:664-671 *)
Definition has_success_state (pm : phrase_matcher) (r : row) : bool :=
  has_state (fuzz_limit pm) r (states_len pm - 1).

(** matcher.rs:644-662 *)
Definition step_by_word_index (pm : phrase_matcher) (wi : nat) (prev nxt : row) : outcome row :=
  do ci <- index (word_classes pm) wi;
  if ci =? 0 then Panic
  else
    do c <- index (classes pm) ci;
    Ok (step (fuzz_limit pm) (c_table c) prev nxt).

(** sort_unstable + dedup on tranches (matcher.rs:698-703) *)
Fixpoint insert_nat (a : nat) (l : list nat) : list nat :=
  match l with
  | [] => [a]
  | b :: l' => if a <=? b then a :: l else b :: insert_nat a l'
  end.
Definition sort_nat (l : list nat) : list nat := fold_right insert_nat [] l.
Fixpoint dedup_nat (l : list nat) : list nat :=
  match l with
  | a :: (b :: _) as l' => if a =? b then dedup_nat l' else a :: dedup_nat l'
  | _ => l
  end.

Definition max_list (l : list nat) : nat := fold_right Nat.max 0 l.

(** matcher.rs:707-714 *)
Fixpoint map_down (m : list (option nat)) (i t : nat) : list (option nat) :=
  match nth_error m t with
  | Some None =>
      let m' := upd m t (Some i) in
      match t with 0 => m' | S t' => map_down m' i t' end
  | _ => m
  end.
(** matcher.rs:704-717 *)
Definition tranche_map (tranches : list nat) : list (option nat) :=
  fold_left (fun m it => map_down m (fst it) (snd it)) (combine (seq 0 (length tranches)) tranches)
    (repeat None (max_list tranches + 1)).

(** matcher.rs:728-738: the rows of all tranches after one more word *)
Definition filter_step (pm : phrase_matcher) (tmap : list (option nat)) (tlen : nat) (cur : list row)
  : outcome (list row) :=
  foldM (fun nx c =>
    do lo <- index tmap (min_tranche c);
    match lo with
    | None => Panic
    | Some lo =>
        Ok (fold_left (fun nx t => upd nx t (step (fuzz_limit pm) (c_table c) (nth t cur []) (nth t nx [])))
              (seq lo (tlen - lo)) nx)
    end) (classes pm) (repeat (zero_row (fuzz_limit pm)) tlen).

(** matcher.rs:740-748 *)
Definition filter_retain (pm : phrase_matcher) (w : nat) (tranches : list nat) (nx : list row)
    (q : list phase) : list phase :=
  fold_left (fun q p =>
    if has_success_state pm (nth (fst p) nx []) then q
    else filter (fun ph => negb (depth ph =? w) || negb (tranche ph =? snd p)) q)
    (combine (seq 0 (length tranches)) tranches) q.

(** matcher.rs:692-751 *)
Definition filter_search_phases (pm : phrase_matcher) (q : list phase) : outcome (list phase) :=
  match q with
  | [] => Ok []
  | _ =>
      let max_depth := max_list (map depth q) in
      let tranches := dedup_nat (sort_nat (map tranche q)) in
      let tmap := tranche_map tranches in
      do (_, q') <-
        foldM (fun cq w =>
          let '(cur, q) := cq in
          do nx <- filter_step pm tmap (length tranches) cur;
          Ok (nx, filter_retain pm w tranches nx q))
        (seq 1 max_depth) (repeat (start_row (fuzz_limit pm) (start_states pm)) (length tranches), q);
      Ok q'
  end.

(** ** Optimisation for a wordlist *)
(** matcher.rs:300-321: [new], the rest of [new_input_wordlist] *)
Fixpoint filter_alive (l : list (word * nat)) (new : list word) (cs : list wclass)
  : outcome (list word * list nat * list wclass * list word) :=
  match l with
  | [] => Ok ([], [], cs, new)
  | (w, ci) :: l' =>
      match new with
      | n :: new' =>
          if word_eqb w n then
            if ci =? 0 then filter_alive l' new' cs
            else
              do cs' <- class_add cs ci w;
              do (ws, cis, cs'', rest) <- filter_alive l' new' cs';
              Ok (w :: ws, ci :: cis, cs'', rest)
          else filter_alive l' new cs
      | [] => filter_alive l' new cs
      end
  end.

(** matcher.rs:353-363 and 401-411 *)
Definition step_all (limit : nat) (live : list table) (cur : row) : row :=
  fold_left (fun nx T => step limit T cur nx) live cur.
(** matcher.rs:352-369 *)
Fixpoint reach_loop (n limit : nat) (live : list table) (cur : row) : row :=
  match n with
  | 0 => cur
  | S n' =>
      let nx := step_all limit live cur in
      if row_eqb nx cur then cur else reach_loop n' limit live nx
  end.
(** matcher.rs:390-418: is the state a candidate? *)
Fixpoint candidate_loop (n limit success : nat) (live : list table) (cur : row) : bool :=
  match n with
  | 0 => false
  | S n' =>
      if has_state limit cur success then true
      else
        let nx := step_all limit live cur in
        if row_eqb nx cur then false else candidate_loop n' limit success live nx
  end.

(** matcher.rs:473-497: do the states [i] and [j] look the same? *)
Definition same_states (limit : nat) (live : list table) (alive_states : N) (i j : nat) : bool :=
  forallb (fun f => forallb (fun T =>
    forallb (fun dst => Bool.eqb (mem (cell T i f) dst) (mem (cell T j f) dst)) (ones alive_states) &&
    forallb (fun src => Bool.eqb (mem (cell T src f) i) (mem (cell T src f) j)) (ones alive_states))
    live) (seq 0 limit).

(** matcher.rs:448-503 *)
Definition redundant_init (n : nat) (alive_states : N) : list (option nat) :=
  map (fun s => if mem alive_states s then None else Some s) (seq 0 n).
Definition mark_row (n limit : nat) (live : list table) (alive_states : N)
    (red : list (option nat)) (i : nat) : list (option nat) :=
  match nth_error red i with
  | Some None =>
      fold_left (fun red j =>
        match nth_error red j with
        | Some None => if same_states limit live alive_states i j then upd red j (Some i) else red
        | _ => red
        end) (seq (i + 1) (n - 1 - (i + 1))) red
  | _ => red
  end.
Definition redundant_states (n limit : nat) (live : list table) (alive_states : N)
  : list (option nat) :=
  fold_left (mark_row n limit live alive_states) (seq 0 n) (redundant_init n alive_states).

Definition is_none {A} (o : option A) : bool := match o with None => true | Some _ => false end.
(** matcher.rs:519-526 *)
Definition new_state_index (red : list (option nat)) : list (option nat) :=
  map (fun p => match snd p with
                | Some _ => None
                | None => Some (length (filter is_none (firstn (fst p) red)))
                end) (combine (seq 0 (length red)) red).

(** Rename the members of a set, dropping those without a new name (matcher.rs:530-534, 563-567) *)
Definition rename_states (nsi : list (option nat)) (s : N) : N :=
  fold_left (fun acc i => match nth_error nsi i with
                          | Some (Some j) => ins acc j
                          | _ => acc
                          end) (ones s) 0%N.

(** matcher.rs:553-569: the row [src] is added to the row of its new name *)
Definition move_row (limit : nat) (red nsi : list (option nat)) (T nT : table) (src : nat)
  : outcome table :=
  match nth_error red src with
  | None => Panic
  | Some r =>
      if match r with Some s => s =? src | None => false end then Ok nT
      else
        do new_src <- match nth_error nsi src, r with
                      | Some (Some k), _ => Ok k
                      | Some None, Some s =>
                          match nth_error nsi s with Some (Some k) => Ok k | _ => Panic end
                      | _, _ => Panic
                      end;
        Ok (upd nT new_src
              (map (fun f => N.lor (nth f (nth new_src nT []) 0%N) (rename_states nsi (cell T src f)))
                 (seq 0 limit)))
  end.
Definition move_table (limit n' : nat) (red nsi : list (option nat)) (T : table) : outcome table :=
  foldM (move_row limit red nsi T) (seq 0 (length nsi)) (empty_table n' limit).

(** matcher.rs:544-573 *)
Definition move_class (limit n' : nat) (red nsi : list (option nat))
    (acc : list nat * list wclass) (c : wclass) : outcome (list nat * list wclass) :=
  let '(class_map, new_classes) := acc in
  if words_count c =? 0 then Ok (class_map ++ [0], new_classes)
  else
    do nT <- move_table limit n' red nsi (c_table c);
    match find_table nT new_classes 0 with
    | Some i => Ok (class_map ++ [i], new_classes)
    | None => Ok (class_map ++ [length new_classes], new_classes ++ [mkClass nT 0 0])
    end.

(** matcher.rs:581-596 *)
Fixpoint move_words (l : list (word * nat)) (class_map : list nat) (cs : list wclass)
  : outcome (list word * list nat * list wclass) :=
  match l with
  | [] => Ok ([], [], cs)
  | (w, ci) :: l' =>
      do ni <- index class_map ci;
      if ni =? 0 then move_words l' class_map cs
      else
        do cs' <- class_add cs ni w;
        do (ws, cis, cs'') <- move_words l' class_map cs';
        Ok (w :: ws, ni :: cis, cs'')
  end.

(** matcher.rs:329-433: the states worth keeping; [md], the largest depth of the queue *)
Definition live_tables (cs : list wclass) : list table :=
  map c_table (filter (fun c => negb (words_count c =? 0)) cs).
Definition reachable_srcs (md limit : nat) (start : N) (live : list table) : N :=
  let r := reach_loop md limit live (start_row limit start) in
  fold_left (fun acc f => N.lor acc (nth f r 0%N)) (seq 0 limit) 0%N.
Definition candidate_srcs (md limit n : nat) (live : list table) : N :=
  fold_left (fun acc src =>
    if candidate_loop (md + 1) limit (n - 1) live (start_row limit (single src)) then ins acc src else acc)
    (seq 0 n) 0%N.
Definition alive_states_of (md limit n : nat) (start : N) (live : list table) : N :=
  N.land (reachable_srcs md limit start live) (candidate_srcs md limit n live).

(** matcher.rs:511-604 *)
Definition remove_states (m : word_matcher) (red : list (option nat)) : outcome word_matcher :=
  let pm := wm_pm m in
  let limit := fuzz_limit pm in
  let n' := length (filter is_none red) in
  let nsi := new_state_index red in
  do (class_map, new_classes) <-
    foldM (move_class limit n' red nsi) (classes pm) ([], [mkClass (empty_table n' limit) 0 0]);
  if negb (length (word_classes pm) =? length (alive m)) then Panic
  else
    do (ws, cis, cs) <- move_words (combine (alive m) (word_classes pm)) class_map new_classes;
    Ok (mkWM (mkPM (pm_ex pm) limit n' (rename_states nsi (start_states pm)) cs cis)
          ws (tabs m) (table_chars m) (word_index m)).

(** matcher.rs:276-605 *)
Definition optimize_for_wordlist (m : word_matcher) (new : list word) (q : list phase)
  : outcome (word_matcher * bool) :=
  if length (alive m) <? length new then Panic
  else match alive m with
  | [] => Ok (m, false)
  | _ =>
      let pm := wm_pm m in
      do (ws, cis, cs, rest) <-
        filter_alive (combine (alive m) (word_classes pm)) new (map clear_class (classes pm));
      match rest with
      | _ :: _ => Panic
      | [] =>
          let pm1 := mkPM (pm_ex pm) (fuzz_limit pm) (states_len pm) (start_states pm) cs cis in
          let m1 := mkWM pm1 ws (tabs m) (table_chars m) (word_index m) in
          match q with
          | [] => Panic
          | _ =>
              let n := states_len pm in
              let limit := fuzz_limit pm in
              let live := live_tables cs in
              let alive_states := alive_states_of (max_list (map depth q)) limit n (start_states pm) live in
              if negb (mem alive_states (n - 1)) then
                Ok (mkWM pm1 [] (tabs m) (table_chars m) (word_index m), true)
              else
                let red := redundant_states n limit live alive_states in
                match nth_error red (n - 1) with
                | Some None =>
                    if length (filter is_none red) =? n then Ok (m1, false)
                    else do m2 <- remove_states m1 red; Ok (m2, true)
                | _ => Panic
                end
          end
      end
  end.
