(** Model of noodle/src/query.rs: [QueryEvaluator]. Counters are naturals; sizes of phases are
    64-bit and saturate. *)
From Verif Require Export Matcher.

(** The texts of [QueryResponse::Complete]. *)
Inductive message :=
| FoundStopping (n : nat)        (* query.rs:223 *)
| AllSingle (n : nat)            (* query.rs:263 *)
| NoPhrases                      (* query.rs:327, 382, 418 *)
| AllPhrases (n d : nat)         (* query.rs:599 *)
| CalledRepeatedly.              (* query.rs:640 *)

(** query.rs:66-71. Of the log lines only the "gave up" one is kept. *)
Inductive response :=
| RTimeout
| RLogs (gave_up : bool)
| RMatch (ws : list word)
| RComplete (m : message).

(** query.rs:77-86. The rows are those of each matcher. *)
Record layer := mkLayer { l_word : nat; l_tranche : nat; l_rows : list row }.

(** query.rs:38-59. The initial estimate, a float computation over the sizes of the phases, is
    represented by these sizes. *)
Record pstate := mkPS {
  p_matchers : list phrase_matcher;
  p_words : list word;
  p_queue : list phase;
  p_layers : list layer;
  p_layer : nat;
  p_partial : bool;
  p_sizes : list N
}.
(** query.rs:29-62 *)
Inductive qphase :=
| QWord (ms : list word_matcher) (wl : list word)
| QPhrase (p : pstate)
| QDone.

(** query.rs:10-23 *)
Record evaluator := mkEval {
  q_phase : qphase;
  depth_limit : nat;
  results_limit : option nat;
  results_count : nat
}.

(** query.rs:103-132 *)
Definition query_new (exs : list expression) (wl : list word) (dl : nat) (rl : option nat)
  : outcome evaluator :=
  match exs with
  | [] => Panic
  | _ =>
      let max_word_len := 1 + max_list (map (fun w => length (w_chars w)) wl) in
      Ok (mkEval (QWord (map (fun ex => wm_new ex max_word_len) exs) wl) dl rl 0)
  end.

(** query.rs:242-248: the remaining matchers consume the words kept by the one before them *)
Fixpoint feed (single : bool) (wl : list word) (w : word) (ms : list word_matcher)
  : outcome (list word_matcher * bool) :=
  match ms with
  | [] => Ok ([], true)
  | m :: ms' =>
      do (m', last) <- iter_last single wl m;
      do (ms'', b) <- feed single (alive m') w ms';
      Ok (m' :: ms'', match last with Some x => word_eqb x w | None => false end && b)
  end.

(** query.rs:237-255 *)
Fixpoint word_loop (fuel : nat) (single : bool) (wl : list word) (d : deadline)
    (m : word_matcher) (ms : list word_matcher)
  : outcome (word_matcher * list word_matcher * option word * deadline) :=
  match fuel with
  | 0 => OutOfFuel
  | S fuel' =>
      do (m', r, d') <- next_single_word single wl d m;
      match r with
      | None => Ok (m', ms, None, d')
      | Some w =>
          do (ms', all_match) <- feed single (alive m') w ms;
          if (all_match : bool) then Ok (m', ms', Some w, d')
          else word_loop fuel' single wl d' m' ms'
      end
  end.

(** query.rs:272-281: the remaining matchers, and the words kept by the last one *)
Fixpoint feed_rest (wl : list word) (ms : list word_matcher) : outcome (list word_matcher * list word) :=
  match ms with
  | [] => Ok ([], wl)
  | m :: ms' =>
      do (m', _) <- iter_last false wl m;
      do (ms'', wl') <- feed_rest (alive m') ms';
      Ok (m' :: ms'', wl')
  end.

Definition nats_eqb (x y : list nat) : bool := if list_eq_dec Nat.eq_dec x y then true else false.

(** query.rs:283-290 *)
Definition check_tranches (ws : list word) : outcome (list nat) :=
  let tranches := dedup_nat (map w_tranche ws) in
  let sorted := dedup_nat (sort_nat tranches) in
  if nats_eqb sorted tranches then Ok sorted else Panic.

(** query.rs:292-300 *)
Definition initial_queue (limit : nat) (tranches : list nat) : list phase :=
  flat_map (fun d => map (fun t => mkPhase d t 0) tranches) (seq 2 (limit - 1)).

(** query.rs:320-336. [None]: the queue is empty. *)
Definition filter_pass (ms : list word_matcher) (q : list phase) : outcome (list phase) :=
  foldM (fun q m => filter_search_phases (wm_pm m) q) ms q.
Fixpoint filter_loop (fuel : nat) (ms : list word_matcher) (q : list phase) (converged : bool)
  : outcome (option (list phase * bool)) :=
  match fuel with
  | 0 => OutOfFuel
  | S fuel' =>
      do q' <- filter_pass ms q;
      match q' with
      | [] => Ok None
      | _ => if length q =? length q' then Ok (Some (q', converged)) else filter_loop fuel' ms q' false
      end
  end.

(** query.rs:338-357: [ms], the matchers in reverse *)
Fixpoint optimize_pass (ms : list word_matcher) (ws : list word) (q : list phase) (converged : bool)
  : outcome (list word_matcher * list word * bool) :=
  match ms with
  | [] => Ok ([], ws, converged)
  | m :: ms' =>
      do (m', did_opt) <- optimize_for_wordlist m ws q;
      let converged := converged && negb did_opt in
      if length (alive m') =? length ws then
        do (ms'', ws', c) <- optimize_pass ms' ws q converged;
        Ok (m' :: ms'', ws', c)
      else if length (alive m') <? length ws then
        match alive m' with
        | [] => Ok (m' :: ms', [], false)
        | ws1 =>
            do (ms'', ws', c) <- optimize_pass ms' ws1 q false;
            Ok (m' :: ms'', ws', c)
        end
      else Panic
  end.

(** query.rs:315-368: [left], the passes left after this one. [None]: no phrases possible. *)
Fixpoint optimize_passes (left : nat) (ms : list word_matcher) (ws : list word) (q : list phase)
  : outcome (option (list word_matcher * list word * list phase * bool)) :=
  do r <- filter_loop (S (length q)) ms q true;
  match r with
  | None => Ok None
  | Some (q', converged) =>
      do (rms, ws', converged') <- optimize_pass (rev ms) ws q' converged;
      let ms' := rev rms in
      if (converged' : bool) then Ok (Some (ms', ws', q', false))
      else match left with
           | 0 => Ok (Some (ms', ws', q', true))
           | S left' => optimize_passes left' ms' ws' q'
           end
  end.

Definition u64_max : N := 2 ^ 64 - 1.
Definition saturating_pow (b : N) (e : nat) : N := N.min u64_max (b ^ N.of_nat e).

(** query.rs:387-391 *)
Definition tranche_counts (ws : list word) (q : list phase) : outcome (list nat) :=
  foldM (fun cs w => modify cs (w_tranche w) S) ws (repeat 0 (max_list (map tranche q) + 1)).
(** query.rs:392-411 *)
Definition sized (counts : list nat) (p : phase) : outcome phase :=
  do c <- index counts (tranche p);
  if c =? 0 then Ok (mkPhase (depth p) (tranche p) 0)
  else
    let size := saturating_pow (N.of_nat (fold_right plus 0 (firstn (tranche p + 1) counts))) (depth p) in
    if N.eqb size 0 then Panic else Ok (mkPhase (depth p) (tranche p) size).
(** query.rs:413: a stable sort *)
Fixpoint insert_phase (p : phase) (q : list phase) : list phase :=
  match q with
  | [] => [p]
  | x :: q' => if N.leb (total_size p) (total_size x) then p :: q else x :: insert_phase p q'
  end.
Definition sort_phases (q : list phase) : list phase := fold_right insert_phase [] q.
(** query.rs:387-413 *)
Definition size_queue (ws : list word) (q : list phase) : outcome (list phase) :=
  do counts <- tranche_counts ws q;
  do q' <- mapM (sized counts) q;
  Ok (sort_phases (filter (fun p => negb (N.eqb (total_size p) 0)) q')).

(** query.rs:423-487 *)
Definition start_phrases (ms : list word_matcher) (ws : list word) (q : list phase) : outcome pstate :=
  do w0 <- index ws 0;
  let pms := map wm_pm ms in
  let blank := mkLayer 0 (w_tranche w0) (map (fun pm => zero_row (fuzz_limit pm)) pms) in
  let first := mkLayer 0 (w_tranche w0) (map (fun pm => start_row (fuzz_limit pm) (start_states pm)) pms) in
  Ok (mkPS pms ws q (first :: repeat blank (max_list (map depth q))) 0 false (map total_size q)).

(** ** Phrases *)
(** query.rs:513-539 *)
Fixpoint step_matchers (pms : list phrase_matcher) (wi : nat) (prev nxt : list row)
  : outcome (list row * bool * bool) :=
  match pms, prev, nxt with
  | [], _, _ => Ok (nxt, true, true)
  | pm :: pms', p :: prev', _ :: nxt' =>
      do r <- step_by_word_index pm wi p (zero_row (fuzz_limit pm));
      if empty_row r then Ok (r :: nxt', false, false)
      else
        do (rs, exact, partial) <- step_matchers pms' wi prev' nxt';
        Ok (r :: rs, has_success_state pm r && exact, partial)
  | _, _, _ => Panic
  end.

(** query.rs:586-610. [None]: the queue is empty. *)
Definition next_phase (wl : list word) (ph : phase) (q : list phase) (layers : list layer)
    (partial : bool) : outcome (option (list phase * list layer * nat * bool)) :=
  let q := tl q in
  let q := if partial then q
           else filter (fun p => (tranche ph <? tranche p) || (depth p <? depth ph)) q in
  match q with
  | [] => Ok None
  | _ =>
      do l0 <- index layers 0;
      do w0 <- index wl 0;
      Ok (Some (q, upd layers 0 (mkLayer 0 (w_tranche w0) (l_rows l0)), 0, false))
  end.
(** query.rs:575-623 *)
Fixpoint advance (li : nat) (wl : list word) (ph : phase) (q : list phase) (layers : list layer)
    (partial : bool) : outcome (option (list phase * list layer * nat * bool)) :=
  do l <- index layers li;
  let wi := S (l_word l) in
  let layers := upd layers li (mkLayer wi (l_tranche l) (l_rows l)) in
  match nth_error wl wi with
  | Some w =>
      if tranche ph <? w_tranche w then
        match li with
        | 0 => next_phase wl ph q layers partial
        | S li' => advance li' wl ph q layers partial
        end
      else Ok (Some (q, upd layers li (mkLayer wi (Nat.max (l_tranche l) (w_tranche w)) (l_rows l)), li, partial))
  | None =>
      match li with
      | 0 => next_phase wl ph q layers partial
      | S li' => advance li' wl ph q layers partial
      end
  end.

(** query.rs:555-558 *)
Definition current_phrase (wl : list word) (layers : list layer) (li : nat) : outcome (list word) :=
  mapM (fun l => index wl (l_word l)) (firstn (li + 1) layers).

(** query.rs:505-624: one turn of the loop. [None]: evaluation is complete; a match found in the
    same turn is then dropped by the caller. *)
Definition turn (p : pstate) : outcome (option pstate * option (list word)) :=
  do ph <- index (p_queue p) 0;
  do prev <- index (p_layers p) (p_layer p);
  do nxt <- index (p_layers p) (p_layer p + 1);
  do (rows, exact, partial) <- step_matchers (p_matchers p) (l_word prev) (l_rows prev) (l_rows nxt);
  let layers := upd (p_layers p) (p_layer p + 1) (mkLayer (l_word nxt) (l_tranche nxt) rows) in
  let full := p_layer p + 1 =? depth ph in
  let had_partial := p_partial p || ((partial || exact) && full) in
  do result <- (if exact && full && (l_tranche prev =? tranche ph)
                then do ws <- current_phrase (p_words p) layers (p_layer p); Ok (Some ws)
                else Ok None);
  if (partial || exact) && (p_layer p + 1 <? depth ph) then
    do l <- index layers (p_layer p + 1);
    Ok (Some (mkPS (p_matchers p) (p_words p) (p_queue p)
                (upd layers (p_layer p + 1) (mkLayer 0 (l_tranche prev) (l_rows l)))
                (p_layer p + 1) had_partial (p_sizes p)), result)
  else
    do r <- advance (p_layer p) (p_words p) ph (p_queue p) layers had_partial;
    match r with
    | None => Ok (None, result)
    | Some (q, layers, li, had_partial) =>
        Ok (Some (mkPS (p_matchers p) (p_words p) q layers li had_partial (p_sizes p)), result)
    end.

Definition found {A} (r : option A) : nat := match r with Some _ => 1 | None => 0 end.

(** query.rs:502-638. [count], the turns of this call so far; [n], the results so far; [dl], the
    depth limit, for the message *)
Fixpoint phrase_loop (fuel : nat) (d : deadline) (count : nat) (dl n : nat) (p : pstate)
  : outcome (qphase * nat * response * deadline) :=
  match fuel with
  | 0 => OutOfFuel
  | S fuel' =>
      do (p', result) <- turn p;
      let n := n + found result in
      match p' with
      | None => Ok (QDone, n, RComplete (AllPhrases n dl), d)
      | Some p' =>
          match result with
          | Some ws => Ok (QPhrase p', n, RMatch ws, d)
          | None =>
              let count := S count in
              let '(expired, d') := if count mod 256 =? 0 then look d else (false, d) in
              if (expired : bool) then Ok (QPhrase p', n, RTimeout, d')
              else phrase_loop fuel' d' count dl n p'
          end
      end
  end.

(** query.rs:269-489 *)
Definition begin_phrases (dl : nat) (ms : list word_matcher) : outcome (qphase * response) :=
  match ms with
  | [] => Panic
  | m :: rest =>
      do (rest', ws) <- feed_rest (alive m) rest;
      do tranches <- check_tranches ws;
      do r <- optimize_passes 100 (m :: rest') ws (initial_queue dl tranches);
      match r with
      | None => Ok (QDone, RComplete NoPhrases)
      | Some (ms', ws', q, gave_up) =>
          match ws', q with
          | [], _ | _, [] => Ok (QDone, RComplete NoPhrases)
          | _, _ =>
              do q' <- size_queue ws' q;
              match q' with
              | [] => Ok (QDone, RComplete NoPhrases)
              | _ => do p <- start_phrases ms' ws' q'; Ok (QPhrase p, RLogs gave_up)
              end
          end
      end
  end.

(** query.rs:217-644 *)
Definition next_within_deadline (fuel : nat) (d : deadline) (ev : evaluator)
  : outcome (evaluator * response * deadline) :=
  let finish ph n r d := Ok (mkEval ph (depth_limit ev) (results_limit ev) n, r, d) in
  let n := results_count ev in
  if match results_limit ev, q_phase ev with
     | Some _, QDone => false
     | Some k, _ => k <=? n
     | None, _ => false
     end
  then finish QDone n (RComplete (FoundStopping n)) d
  else
    match q_phase ev with
    | QDone => finish QDone n (RComplete CalledRepeatedly) d
    | QPhrase p =>
        match p_words p with
        | [] => Panic
        | _ =>
            do (ph, n', r, d') <- phrase_loop fuel d 0 (depth_limit ev) n p;
            finish ph n' r d'
        end
    | QWord [] _ => Panic
    | QWord (m :: rest) wl =>
        let single := depth_limit ev <=? 1 in
        do (m', rest', r, d1) <- word_loop (S (length wl)) single wl d m rest;
        match r with
        | Some w => finish (QWord (m' :: rest') wl) (S n) (RMatch [w]) d1
        | None =>
            let '(expired, d2) := look d1 in
            if (expired : bool) then finish (QWord (m' :: rest') wl) n RTimeout d2
            else if (single : bool) then finish QDone n (RComplete (AllSingle n)) d2
            else
              do (ph, r) <- begin_phrases (depth_limit ev) (m' :: rest');
              finish ph n r d2
        end
    end.

(** Successive calls, one for each deadline. *)
Fixpoint calls (fuel : nat) (ds : list deadline) (ev : evaluator) : outcome (evaluator * list response) :=
  match ds with
  | [] => Ok (ev, [])
  | d :: ds' =>
      do (ev', r, _) <- next_within_deadline fuel d ev;
      do (ev'', rs) <- calls fuel ds' ev';
      Ok (ev'', r :: rs)
  end.

(** query.rs:647-657: the responses of the iterator, at most [k] of them *)
Fixpoint iterate (fuel k : nat) (ev : evaluator) : outcome (evaluator * list response) :=
  match q_phase ev, k with
  | QDone, _ | _, 0 => Ok (ev, [])
  | _, S k' =>
      do (ev', r, _) <- next_within_deadline fuel None ev;
      do (ev'', rs) <- iterate fuel k' ev';
      Ok (ev'', r :: rs)
  end.
