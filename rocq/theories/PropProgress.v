(** C74: what [progress] reports. *)
From Verif Require Import RunProofs MatchProofs PropQuery Prepared PreparedProofs Progress ProgressProofs ProgressProofs2 PropMatcher.

(** It is a part of a whole. While single words are looked at it is the number of words of the
    list looked at so far, rounded down to percent. In the search for phrases the percentage is that of
    the two numbers as long as 100 times the first fits into 32 bits; a build with overflow checks
    reports no other. *)
Theorem C74_progress_part_of_whole : forall ovf e exs wl dl rl ev fuel ds ev' rs a n pc,
  fresh exs wl dl rl ev -> calls fuel ds ev = Ok (ev', rs) -> progress ovf e ev' = Ok (Some (a, n, pc)) ->
  (a <= n)%N /\ (pc <= 100)%N /\
  match q_phase ev' with
  | QWord _ _ => n = N.of_nat (length wl) /\ words_done ev' = Some (N.to_nat a) /\ pc = (100 * a / n)%N
  | _ => pc = ((100 * a) mod 2 ^ 32 / n)%N /\ (ovf = true -> pc = (100 * a / n)%N)
  end.
Proof.
  intros ovf e exs wl dl rl ev fuel ds ev' rs a n pc Hf Hc. apply progress_values.
  - eapply calls_usable; [eapply fresh_usable; exact Hf|exact Hc].
  - apply (calls_counted fuel ds ev ev' rs); [eapply fresh_counted; exact Hf|exact Hc].
Qed.
Print Assumptions C74_progress_part_of_whole.

(** While single words are looked at it does not go back, whatever the deadlines. *)
Theorem C74_word_progress_monotone_partial : forall ovf e exs wl dl rl ev fuel ds ev1 rs1 ds2 ev2 rs2 a n pc a2 n2 pc2,
  fresh exs wl dl rl ev -> calls fuel ds ev = Ok (ev1, rs1) -> calls fuel ds2 ev1 = Ok (ev2, rs2) ->
  progress ovf e ev1 = Ok (Some (a, n, pc)) -> progress ovf e ev2 = Ok (Some (a2, n2, pc2)) ->
  (match q_phase ev2 with QWord _ _ => True | _ => False end) -> n2 = n /\ (a <= a2)%N.
Proof.
  intros ovf e exs wl dl rl ev fuel ds ev1 rs1 ds2 ev2 rs2 a n pc a2 n2 pc2 Hf H1 H2 P1 P2 Hq.
  pose proof (fresh_counted _ _ _ _ _ Hf) as C0. destruct (calls_counted _ _ _ _ _ C0 H1) as [C1 _]. destruct (calls_counted _ _ _ _ _ C1 H2) as [C2 M].
  pose proof (calls_usable wl _ _ _ _ _ (fresh_usable _ _ _ _ _ Hf) H1) as U1. pose proof (calls_usable wl _ _ _ _ _ U1 H2) as U2.
  destruct (progress_values _ _ _ _ _ _ _ U1 C1 P1) as (_ & _ & V1). destruct (progress_values _ _ _ _ _ _ _ U2 C2 P2) as (_ & _ & V2).
  destruct (q_phase ev2); try destruct Hq. destruct V2 as (-> & W2 & _). destruct (M _ W2) as (k & Hk & Hle). 
  assert (Hw : match q_phase ev1 with QWord _ _ => True | _ => False end) by (unfold words_done in Hk; destruct (q_phase ev1); [exact I|discriminate|discriminate]).
  destruct (q_phase ev1); try destruct Hw. destruct V1 as (-> & W1 & _). split; [reflexivity|]. assert (k = N.to_nat a) by congruence. lia.
Qed.
Print Assumptions C74_word_progress_monotone_partial.

(** In the search for phrases it does. The floats: the logarithm of 0 is minus infinity, its square
    infinite, and as u32 that is 2^32 - 1; the logarithm of 1 is 0. *)
Definition float_like (e : estimator) : Prop :=
  log_like e /\ (forall d, 1 <= d -> step_est e 0 d = (2 ^ 32 - 1)%N) /\ forall d, step_est e 1 d = 0%N.
(** The query [ba] over the words a, b: when the search for phrases begins, everything is reported
    done; when the phrase "b a" is found, nothing. *)
Theorem C74_progress_refuted : exists es exs wl ev ev1 ev2 p, compiled_all es exs /\ sorted_words wl /\ fresh exs wl 2 None ev /\
  calls 50 [None] ev = Ok (ev1, [RLogs false]) /\ calls 50 [None] ev1 = Ok (ev2, [RMatch p]) /\
  forall ovf e, float_like e -> exists n, (1 <= n)%N /\ progress ovf e ev1 = Ok (Some (n, n, 100%N)) /\ progress ovf e ev2 = Ok (Some (0%N, n, 0%N)).
Proof.
  set (es := [lit [1; 0]]). set (wl := [tword 0 [0]; tword 0 [1]]).
  exists es, (map compile es), wl. eexists _, _, _, _. split; [apply compile_ok; [discriminate|vm_compute; reflexivity]|]. split; [apply sorted_b_ok; vm_compute; reflexivity|].
  split; [vm_compute; reflexivity|]. split; [vm_compute; reflexivity|]. split; [vm_compute; reflexivity|].
  intros ovf e ((_ & H1) & H2 & H3). destruct (H1 4%N ltac:(discriminate)) as [Ha Hb]. exists (est e 4). split; [exact Ha|].
  unfold progress. cbn [q_phase p_queue p_layers p_sizes index nth_error bind l_word depth search_estimate map fold_right total_size]. rewrite N.add_0_r.
  rewrite (H2 2 ltac:(lia)), (H3 2). set (x := est e 4) in *. clearbody x. clear H1 H2 H3. split.
  - replace (x - (2 ^ 32 - 1))%N with 0%N by lia. unfold sub32. replace (N.leb 0 x) with true by (symmetry; apply N.leb_le; lia). rewrite N.sub_0_r. cbn [bind]. unfold mul32. replace (N.ltb (100 * x) (2 ^ 32)) with true by (symmetry; apply N.ltb_lt; lia). cbn [bind].
    unfold div32. replace (N.eqb x 0) with false by (symmetry; apply N.eqb_neq; lia). cbn [bind]. rewrite N.div_mul by lia. reflexivity.
  - rewrite N.sub_0_r. unfold sub32. rewrite N.leb_refl, N.sub_diag. cbn [bind]. unfold mul32. cbn [N.mul N.ltb N.compare bind]. change (N.ltb 0 (2 ^ 32)) with true. cbn [bind].
    unfold div32. replace (N.eqb x 0) with false by (symmetry; apply N.eqb_neq; lia). cbn [bind]. rewrite N.div_0_l by lia. reflexivity.
Qed.
Print Assumptions C74_progress_refuted.
(** There are such floats. *)
Example C74_float_like_met : float_like (mkEst (fun x => if N.eqb x 1 then 0 else 4)%N (fun i d => if i =? 0 then (2 ^ 32 - 1)%N else 0%N)).
Proof.
  split; [split; [reflexivity|]|split; reflexivity]. intros x Hx. cbn [est]. destruct (N.eqb_spec x 1); [lia|]. split; intros G; discriminate G.
Qed.
(** Two words of three looked at. *)
Example C74_hypotheses_met : exists exs wl ev ev1 rs1, fresh exs wl 2 None ev /\ calls 50 [None] ev = Ok (ev1, rs1) /\
  forall ovf e, progress ovf e ev1 = Ok (Some (2%N, 3%N, 66%N)).
Proof.
  set (es := [lit [1]]). set (wl := [tword 0 [0]; tword 0 [1]; tword 0 [2]]).
  exists (map compile es), wl. eexists _, _, _. split; [vm_compute; reflexivity|]. split; [vm_compute; reflexivity|]. intros ovf e. vm_compute. reflexivity.
Qed.
