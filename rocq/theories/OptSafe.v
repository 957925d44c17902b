(** Executable side conditions of the optimisation passes (expression.rs:338-435). They follow the
    passes step by step and say when each step is harmless; they are not part of the program. *)
From Verif Require Export Nfa Lang.

(** Old state [u] is represented by slot [m] whose content is old state [r]: either [u] itself, or
    [u] is a pure epsilon state that reaches [r], and all it reaches is reached by [r] or is
    represented by the same slot. *)
Definition merged_ok (st : list state) (smap slots : list nat) (u : nat) (x : state) : bool :=
  match nth_error smap u with
  | Some m =>
      match nth_error slots m with
      | Some r =>
          (r =? u) ||
          (N.eqb (chars x) EMPTY && mem (eps x) r &&
           match nth_error st r with
           | Some y => forallb (fun t => mem (eps y) t ||
                         match nth_error smap t with Some m' => m' =? m | None => false end) (ones (eps x))
           | None => false
           end)
      | None => false
      end
  | None => false
  end.

Definition merge_ok (st : list state) (smap slots : list nat) : bool :=
  forallb (fun p => merged_ok st smap slots (fst p) (snd p)) (combine (seq 0 (length st)) st) &&
  forallb (fun r => r <? length st) slots &&
  match nth_error smap 0, nth_error smap (length st - 1), nth_error slots 0 with
  | Some 0, Some l, Some 0 => S l =? length slots
  | _, _, _ => false
  end.

(** The pass deletes as many states as it says, and represents every state properly. *)
Definition prune_safe (nblk : nat) (st : list state) : bool :=
  match foldM (prune_step nblk st) (combine (seq 0 (length st)) st) (prune_init (length st)) with
  | Ok p => merge_ok st (state_map p) (somes (state_map_from p)) &&
            (length (somes (state_map_from p)) + length (deleted p) =? length st)
  | _ => false
  end.

(** Merging [char_index] into [eps_index] adds no path: every state that reaches the character
    state, other than itself, reaches its successor, and no character leads to it. *)
Definition collapse_safe (char_index : nat) (st : list state) : bool :=
  match nth_error st char_index with
  | Some c =>
      forallb (fun p => let '(k, x) := p in
                        (k =? char_index) ||
                        (implb (mem (eps x) char_index) (mem (eps x) (next c)) &&
                         implb (negb (N.eqb (chars x) EMPTY)) (negb (next x =? char_index))))
              (combine (seq 0 (length st)) st)
  | None => false
  end.

Fixpoint collapse_loop_safe (fuel nblk i : nat) (st : list state) : bool :=
  if i <? length st then
    match fuel with
    | 0 => true
    | S fuel' =>
        match find_pair nblk i (seq 0 (length st)) st with
        | Ok (Some (e, c)) =>
            collapse_safe c st &&
            match collapse nblk e c st with
            | Ok st' => collapse_loop_safe fuel' nblk i st'
            | _ => true
            end
        | Ok None => collapse_loop_safe fuel' nblk (S i) st
        | _ => true
        end
    end
  else true.

Fixpoint optimize_loop_safe (fuel nblk : nat) (st : list state) : bool :=
  match fuel with
  | 0 => true
  | S fuel' =>
      match epsilon_transitive_closure nblk st with
      | Ok st1 =>
          prune_safe nblk st1 &&
          match prune_epsilon_pairs nblk st1 with
          | Ok (st2, nblk2) =>
              collapse_loop_safe (length st2) nblk2 0 st2 &&
              match collapse_epsilon_char_pairs nblk2 st2 with
              | Ok st3 =>
                  if length st3 =? length st then true
                  else match shrink_bitsets nblk2 st3 with
                       | Ok (st4, nblk4) => optimize_loop_safe fuel' nblk4 st4
                       | _ => true
                       end
              | _ => true
              end
          | _ => true
          end
      | _ => true
      end
  end.
Definition optimize_safe (st : list state) : bool := optimize_loop_safe (S (length st)) max_blocks st.
