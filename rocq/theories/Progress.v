(** Model of [QueryEvaluator::progress] (query.rs:94-100, 187-215; matcher.rs:160-167). *)
From Verif Require Export Query.

(** The float computations are parameters: [est x] is [(x as f64).log2().powf(2.0) as u32] and
    [step_est i d] is [((i as f64).log2() * (d as f64)).powf(2.0) as u32]. *)
Record estimator := mkEst { est : N -> N; step_est : nat -> nat -> N }.
(** What is used about them: log2 1 = 0, 1 <= log2 x <= 64 for 2 <= x < 2^64. *)
Definition log_like (e : estimator) : Prop :=
  est e 1 = 0%N /\ forall x, (2 <= x)%N -> (1 <= est e x <= 4096)%N.

(** u32 arithmetic; [ovf], the profile checks for overflow *)
Definition sub32 (ovf : bool) (a b : N) : outcome N :=
  if N.leb b a then Ok (a - b)%N else if ovf then Panic else Ok ((a + 2 ^ 32 - b) mod 2 ^ 32)%N.
Definition mul32 (ovf : bool) (a b : N) : outcome N :=
  if N.ltb (a * b) (2 ^ 32) then Ok (a * b)%N else if ovf then Panic else Ok ((a * b) mod 2 ^ 32)%N.
Definition div32 (a b : N) : outcome N := if N.eqb b 0 then Panic else Ok (a / b)%N.

(** query.rs:94-100 *)
Definition search_estimate (e : estimator) (sizes : list N) : N := fold_right N.add 0%N (map (est e) sizes).

(** query.rs:187-215. The numbers of the text: how much of what, and the percentage. *)
Definition progress (ovf : bool) (e : estimator) (ev : evaluator) : outcome (option (N * N * N)) :=
  match q_phase ev with
  | QWord [] _ => Panic
  | QWord (m :: _) wl =>
      if length wl =? 0 then Panic
      else Ok (Some (N.of_nat (word_index m), N.of_nat (length wl),
                     N.of_nat (100 * word_index m / length wl)))
  | QPhrase p =>
      do ph <- index (p_queue p) 0;
      do l <- index (p_layers p) 0;
      let initial := search_estimate e (p_sizes p) in
      let now := search_estimate e (map total_size (p_queue p)) in
      do done <- sub32 ovf initial (now - step_est e (l_word l) (depth ph))%N;
      do hundred <- mul32 ovf 100 done;
      do percent <- div32 hundred initial;
      Ok (Some (done, initial, percent))
  | QDone => Ok None
  end.
