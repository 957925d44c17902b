(** The numbers [progress] reports. *)
From Verif Require Export ProgressProofs.
From Verif Require Import DeadlineProofs.

(** Words looked at, while single words are being looked at. *)
Definition words_done (ev : evaluator) : option nat := match q_phase ev with QWord (m :: _) _ => Some (word_index m) | _ => None end.
Definition counted (ev : evaluator) : Prop := match q_phase ev with QWord ms wl => Forall (fun m => word_index m <= length wl) (firstn 1 ms) | _ => True end.
Lemma begin_no_words dl ms ph r : begin_phrases dl ms = Ok (ph, r) -> match ph with QWord _ _ => False | _ => True end.
Proof. intros H. pose proof (begin_shrinks _ _ _ _ H) as Hs. destruct ph; [|exact I|exact I]. revert H. unfold begin_phrases. destruct ms as [|m rest]; [discriminate|]. 
  destruct (feed_rest (alive m) rest) as [[rest2 ws]| | |]; cbn [bind]; try discriminate.
  destruct (check_tranches ws) as [tr| | |]; cbn [bind]; try discriminate.
  destruct (optimize_passes _ _ _ _) as [[[[[ms' ws'] q] g]|]| | |]; cbn [bind]; try discriminate.
  destruct ws' as [|w0 ws']; [discriminate|]. destruct q as [|p0 q]; [discriminate|].
  destruct (size_queue _ _) as [q'| | |]; cbn [bind]; try discriminate. destruct q' as [|p1 q']; [discriminate|]. cbn. discriminate.
Qed.
Lemma loop_no_words fuel dl : forall p c dd n ph n' r d2, phrase_loop fuel dd c dl n p = Ok (ph, n', r, d2) -> match ph with QWord _ _ => False | _ => True end.
Proof.
  induction fuel as [|fuel IH]; intros p c dd n ph n' r d2; cbn [phrase_loop]; [discriminate|].
  destruct (turn p) as [[[p'|] res]| | |]; cbn [bind]; try discriminate; [|intros [= <- _ _ _]; exact I]. destruct res; [intros [= <- _ _ _]; exact I|].
  destruct (if S c mod 256 =? 0 then look dd else (false, dd)) as [ex d3]. destruct ex; [intros [= <- _ _ _]; exact I|apply IH].
Qed.
Lemma next_counted fuel d ev ev' r d' : counted ev -> next_within_deadline fuel d ev = Ok (ev', r, d') -> counted ev' /\
  forall b, words_done ev' = Some b -> exists a, words_done ev = Some a /\ a <= b.
Proof.
  intros H. unfold next_within_deadline. destruct (match results_limit ev, q_phase ev with Some _, QDone => false | Some k, _ => k <=? results_count ev | None, _ => false end).
  { intros [= <- _ _]. split; [exact I|discriminate]. }
  unfold words_done. unfold counted in H. destruct (q_phase ev) as [ms wl'|p|]; [| |intros [= <- _ _]; split; [exact I|discriminate]].
  - destruct ms as [|m rest]; [discriminate|]. cbn [firstn] in H. apply Forall_inv in H. cbn beta in H.
    destruct (word_loop _ _ _ _ _ _) as [[[[m' rest'] r1] d1]| | |] eqn:E; cbn [bind]; try discriminate. destruct (word_loop_index _ _ _ _ _ _ _ _ _ _ H E) as [Hi _].
    assert (G : counted (mkEval (QWord (m' :: rest') wl') (depth_limit ev) (results_limit ev) 0)) by (repeat constructor; lia).
    destruct r1 as [w|].
    { intros [= <- _ _]. split; [exact G|]. cbn [q_phase]. intros b [= <-]. eexists. split; [reflexivity|lia]. }
    destruct (look d1) as [ex d2]. destruct ex. { intros [= <- _ _]. split; [exact G|]. cbn [q_phase]. intros b [= <-]. eexists. split; [reflexivity|lia]. }
    destruct (depth_limit ev <=? 1); [intros [= <- _ _]; split; [exact I|discriminate]|].
    destruct (begin_phrases _ _) as [[ph r2]| | |] eqn:Eb; cbn [bind]; try discriminate. intros [= <- _ _]. unfold counted. cbn [q_phase]. pose proof (begin_no_words _ _ _ _ Eb) as Hn.
    destruct ph; [destruct Hn|split; [exact I|discriminate]|split; [exact I|discriminate]].
  - destruct (p_words p); [discriminate|]. destruct (phrase_loop _ _ _ _ _ _) as [[[[ph n'] r2] d2]| | |] eqn:E; cbn [bind]; try discriminate.
    intros [= <- _ _]. unfold counted. cbn [q_phase]. pose proof (loop_no_words _ _ _ _ _ _ _ _ _ _ E) as Hn. destruct ph; [destruct Hn|split; [exact I|discriminate]|split; [exact I|discriminate]].
Qed.
Lemma calls_counted fuel ds : forall ev ev' rs, counted ev -> calls fuel ds ev = Ok (ev', rs) -> counted ev' /\
  forall b, words_done ev' = Some b -> exists a, words_done ev = Some a /\ a <= b.
Proof.
  induction ds as [|d ds IH]; intros ev ev' rs H; cbn [calls]; [intros [= <- _]; split; [exact H|]; intros b Hb; exists b; auto|].
  destruct (next_within_deadline fuel d ev) as [[[ev1 r] d1]| | |] eqn:E; cbn [bind]; try discriminate.
  destruct (calls fuel ds ev1) as [[ev2 rs2]| | |] eqn:E2; cbn [bind]; try discriminate. intros [= <- _].
  destruct (next_counted _ _ _ _ _ _ H E) as [H1 M1]. destruct (IH _ _ _ H1 E2) as [H2 M2]. split; [exact H2|].
  intros b Hb. destruct (M2 b Hb) as (c & Hc & Hcb). destruct (M1 c Hc) as (a & Ha & Hac). exists a. split; [exact Ha|lia].
Qed.
Lemma fresh_counted exs wl dl rl ev : fresh exs wl dl rl ev -> counted ev.
Proof. unfold fresh, query_new. destruct exs; [discriminate|]. intros [= <-]. unfold counted. cbn [q_phase firstn map]. constructor; [apply Nat.le_0_l|apply Forall_nil]. Qed.

Lemma progress_values ovf e wl ev a n pc : usable wl (q_phase ev) -> counted ev -> progress ovf e ev = Ok (Some (a, n, pc)) ->
  (a <= n)%N /\ (pc <= 100)%N /\
  match q_phase ev with
  | QWord _ _ => n = N.of_nat (length wl) /\ words_done ev = Some (N.to_nat a) /\ pc = (100 * a / n)%N
  | _ => pc = ((100 * a) mod 2 ^ 32 / n)%N /\ (ovf = true -> pc = (100 * a / n)%N)
  end.
Proof.
  intros Hu Hc. unfold progress, words_done. unfold counted in Hc. destruct (q_phase ev) as [ms wl'|p|]; [| |discriminate].
  - destruct Hu as [_ ->]. destruct ms as [|m ms]; [discriminate|]. cbn [firstn] in Hc. apply Forall_inv in Hc. cbn beta in Hc. destruct (Nat.eqb_spec (length wl) 0) as [|Hl]; [discriminate|]. intros [= <- <- <-].
    split; [lia|]. split.
    + assert (G : 100 * word_index m / length wl <= 100) by (apply Nat.div_le_upper_bound; [exact Hl|rewrite Nat.mul_comm; apply Nat.mul_le_mono_r; exact Hc]).
      assert (LE : forall a b, a <= b -> (N.of_nat a <= N.of_nat b)%N) by (clear; intros; lia). exact (LE _ 100 G).
    + split; [reflexivity|]. rewrite Nat2N.id. split; [reflexivity|]. 
      assert (Hd : N.of_nat (100 * word_index m / length wl) = (100 * N.of_nat (word_index m) / N.of_nat (length wl))%N) by (rewrite Nat2N.inj_div, Nat2N.inj_mul; reflexivity). exact Hd.
  - destruct Hu as (H1 & H2 & H3 & H4). destruct (p_queue p) as [|ph q] eqn:Eq; [congruence|]. destruct (p_layers p) as [|l ls]; [congruence|]. cbn [index nth_error bind].
    assert (H5 := H4 (est e)). unfold search_estimate. unfold total in H5. set (I := fold_right N.add 0%N (map (est e) (p_sizes p))) in *.
    set (Now := fold_right N.add 0%N (map (est e) (map total_size (ph :: q)))) in *. 
    unfold sub32. replace (N.leb (Now - step_est e (l_word l) (depth ph)) I) with true by (symmetry; apply N.leb_le; lia). cbn [bind].
    set (x := (I - (Now - step_est e (l_word l) (depth ph)))%N). assert (Hx : (x <= I)%N) by (unfold x; lia). clearbody x.
    assert (Hm : forall h, mul32 ovf 100 x = Ok h -> h = ((100 * x) mod 2 ^ 32)%N /\ (ovf = true -> h = (100 * x)%N)).
    { unfold mul32. intros h. destruct (N.ltb_spec (100 * x) (2 ^ 32)) as [Hlt|_].
      - intros [= <-]. split; [symmetry; apply N.mod_small; exact Hlt|reflexivity].
      - destruct ovf; [discriminate|]. intros [= <-]. split; [reflexivity|discriminate]. }
    destruct (mul32 ovf 100 x) as [h| | |]; cbn [bind]; try discriminate. destruct (Hm h eq_refl) as [Ha Hb]. clear Hm. unfold div32.
    destruct (N.eqb_spec I 0) as [E|E]; cbn [bind]; [discriminate|]. intros [= <- <- <-]. split; [exact Hx|]. split.
    + apply N.div_le_upper_bound; [exact E|]. rewrite Ha. pose proof (N.mod_le (100 * x) (2 ^ 32) ltac:(discriminate)). lia.
    + split; [rewrite Ha; reflexivity|]. intros Ho. rewrite (Hb Ho). reflexivity.
Qed.
