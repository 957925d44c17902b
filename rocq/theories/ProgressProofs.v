(** The estimates of the phrase search never grow beyond the initial one. *)
From Verif Require Export Progress ConvergeProofs Answers.

Definition total (f : N -> N) (l : list N) : N := fold_right N.add 0%N (map f l).
Definition shrinks (p : pstate) : Prop :=
  p_queue p <> [] /\ p_layers p <> [] /\ Forall (fun s => 1 <= s)%N (p_sizes p) /\
  forall f, (total f (map total_size (p_queue p)) <= total f (p_sizes p))%N.

Lemma total_filter f (P : phase -> bool) q : (total f (map total_size (filter P q)) <= total f (map total_size q))%N.
Proof. induction q as [|a q IH]; [apply N.le_refl|]. unfold total in *. cbn [filter map fold_right]. destruct (P a); cbn [map fold_right]; lia. Qed.
Lemma total_tl f q : (total f (map total_size (tl q)) <= total f (map total_size q))%N.
Proof. destruct q as [|a q]; [apply N.le_refl|]. unfold total. cbn [tl map fold_right]. lia. Qed.
Lemma upd_nonempty {A} (l : list A) i a : l <> [] -> upd l i a <> [].
Proof. intros H E. apply H. assert (Hl : length (upd l i a) = 0) by (rewrite E; reflexivity). rewrite upd_length in Hl. destruct l; [reflexivity|discriminate]. Qed.
Definition kept_queue (q : list phase) (layers : list layer) (r : option (list phase * list layer * nat * bool)) : Prop :=
  match r with
  | None => True
  | Some (q', layers', _, _) => q' <> [] /\ layers' <> [] /\ forall f, (total f (map total_size q') <= total f (map total_size q))%N
  end.
Lemma next_phase_kept wl ph q layers partial r : layers <> [] -> next_phase wl ph q layers partial = Ok r -> kept_queue q layers r.
Proof.
  intros Hl. unfold next_phase. set (q2 := if partial then tl q else _).
  assert (Hq : forall f, (total f (map total_size q2) <= total f (map total_size q))%N).
  { intros f. unfold q2. destruct partial; [apply total_tl|]. etransitivity; [apply total_filter|apply total_tl]. }
  destruct q2 as [|p2 q2'] eqn:E2; [intros [= <-]; exact I|]. rewrite <- E2 in *.
  destruct (index layers 0) as [l0| | |]; cbn [bind]; try discriminate. destruct (index wl 0) as [w0| | |]; cbn [bind]; try discriminate.
  intros [= <-]. cbn [kept_queue]. split; [congruence|]. split; [apply upd_nonempty; exact Hl|exact Hq].
Qed.
Lemma advance_kept wl ph q : forall li layers partial r, layers <> [] -> q <> [] -> advance li wl ph q layers partial = Ok r -> kept_queue q layers r.
Proof.
  induction li as [|li IH]; intros layers partial r Hl Hq; cbn [advance]; (destruct (index layers _) as [l| | |]; cbn [bind]; try discriminate);
    set (ls := upd layers _ _); assert (Hls : ls <> []) by (apply upd_nonempty; exact Hl).
  - destruct (nth_error wl (S (l_word l))) as [w|]; [|intros E; exact (next_phase_kept _ _ _ _ _ _ Hls E)].
    destruct (tranche ph <? w_tranche w); [intros E; exact (next_phase_kept _ _ _ _ _ _ Hls E)|].
    intros [= <-]. cbn [kept_queue]. split; [exact Hq|]. split; [apply upd_nonempty; exact Hls|intros f; apply N.le_refl].
  - destruct (nth_error wl (S (l_word l))) as [w|]; [|intros E; exact (IH _ _ _ Hls Hq E)].
    destruct (tranche ph <? w_tranche w); [intros E; exact (IH _ _ _ Hls Hq E)|].
    intros [= <-]. cbn [kept_queue]. split; [exact Hq|]. split; [apply upd_nonempty; exact Hls|intros f; apply N.le_refl].
Qed.
Lemma turn_shrinks p p' r : shrinks p -> turn p = Ok (Some p', r) -> shrinks p'.
Proof.
  intros (H1 & H2 & H3 & H4). unfold turn.
  destruct (index (p_queue p) 0) as [ph| | |]; cbn [bind]; try discriminate.
  destruct (index (p_layers p) (p_layer p)) as [prev| | |]; cbn [bind]; try discriminate.
  destruct (index (p_layers p) (p_layer p + 1)) as [nxt| | |]; cbn [bind]; try discriminate.
  destruct (step_matchers _ _ _ _) as [[[rows exact] partial]| | |]; cbn [bind]; try discriminate.
  set (ls := upd (p_layers p) (p_layer p + 1) _). assert (Hls : ls <> []) by (apply upd_nonempty; exact H2).
  match goal with |- bind ?x _ = _ -> _ => destruct x as [res| | |]; cbn [bind]; try discriminate end.
  destruct ((partial || exact) && (p_layer p + 1 <? depth ph)).
  - destruct (index ls (p_layer p + 1)) as [l| | |]; cbn [bind]; try discriminate. intros [= <- _]. repeat split; cbn; auto. apply upd_nonempty. exact Hls.
  - destruct (advance _ _ _ _ _ _) as [[[[[q ls2] li] hp]|]| | |] eqn:E; cbn [bind]; try discriminate.
    intros [= <- _]. pose proof (advance_kept _ _ _ _ _ _ _ Hls H1 E) as (G1 & G2 & G3). split; [exact G1|]. split; [exact G2|]. split; [exact H3|].
    intros f. etransitivity; [apply G3|apply H4].
Qed.
Definition phase_shrinks (ph : qphase) : Prop := match ph with QPhrase p => shrinks p | _ => True end.
Lemma loop_shrinks : forall fuel d count dl n p ph n' r d', shrinks p -> phrase_loop fuel d count dl n p = Ok (ph, n', r, d') -> phase_shrinks ph.
Proof.
  induction fuel as [|fuel IH]; intros d count dl n p ph n' r d' Hp; cbn [phrase_loop]; [discriminate|].
  destruct (turn p) as [[[p'|] res]| | |] eqn:E; cbn [bind]; try discriminate.
  - pose proof (turn_shrinks _ _ _ Hp E) as Hp'. destruct res as [ws|]; [intros [= <- _ _ _]; exact Hp'|].
    destruct (if S count mod 256 =? 0 then look d else (false, d)) as [ex d2]. destruct ex; [intros [= <- _ _ _]; exact Hp'|apply IH; exact Hp'].
  - intros [= <- _ _ _]. exact I.
Qed.
Lemma in_insert_phase x p q : In x (insert_phase p q) <-> x = p \/ In x q.
Proof. induction q as [|a q IH]; cbn [insert_phase]; [cbn; intuition congruence|]. destruct (N.leb _ _); cbn [In]; [intuition congruence|]. rewrite IH. intuition congruence. Qed.
Lemma in_sort_phases x q : In x (sort_phases q) <-> In x q.
Proof. induction q as [|a q IH]; [reflexivity|]. cbn [sort_phases fold_right]. fold (sort_phases q). rewrite in_insert_phase, IH. cbn [In]. intuition congruence. Qed.
Lemma size_queue_pos ws q q' : size_queue ws q = Ok q' -> Forall (fun s => 1 <= s)%N (map total_size q').
Proof.
  unfold size_queue. destruct (tranche_counts ws q) as [cs| | |]; cbn [bind]; try discriminate.
  destruct (mapM (sized cs) q) as [q2| | |]; cbn [bind]; try discriminate. intros [= <-]. apply Forall_map, Forall_forall. intros ph Hph.
  apply in_sort_phases, filter_In in Hph. destruct Hph as [_ H]. destruct (N.eqb_spec (total_size ph) 0); [discriminate|]. lia.
Qed.
Lemma begin_shrinks dl ms ph r : begin_phrases dl ms = Ok (ph, r) -> phase_shrinks ph.
Proof.
  unfold begin_phrases. destruct ms as [|m rest]; [discriminate|]. destruct (feed_rest (alive m) rest) as [[rest' ws]| | |]; cbn [bind]; try discriminate.
  destruct (check_tranches ws) as [tr| | |]; cbn [bind]; try discriminate.
  destruct (optimize_passes 100 (m :: rest') ws (initial_queue dl tr)) as [[[[[ms' ws'] q] g]|]| | |]; cbn [bind]; try discriminate; [|intros [= <- _]; exact I].
  destruct ws' as [|w0 ws']; [intros [= <- _]; exact I|]. destruct q as [|p0 q]; [intros [= <- _]; exact I|].
  destruct (size_queue (w0 :: ws') (p0 :: q)) as [q'| | |] eqn:E; cbn [bind]; try discriminate. pose proof (size_queue_pos _ _ _ E) as Hpos.
  destruct q' as [|p1 q']; [intros [= <- _]; exact I|]. cbn. intros [= <- _]. cbn [phase_shrinks]. split; [discriminate|]. split; [discriminate|]. split; [exact Hpos|].
  intros f. apply N.le_refl.
Qed.
Definition usable (wl : list word) (ph : qphase) : Prop := match ph with QWord ms wl' => ms <> [] /\ wl' = wl | _ => phase_shrinks ph end.
Lemma next_usable wl fuel d ev ev' r d' : usable wl (q_phase ev) -> next_within_deadline fuel d ev = Ok (ev', r, d') -> usable wl (q_phase ev').
Proof.
  intros H. unfold next_within_deadline. destruct (match results_limit ev, q_phase ev with Some _, QDone => false | Some k, _ => k <=? results_count ev | None, _ => false end).
  { intros [= <- _ _]. exact I. }
  destruct (q_phase ev) as [ms wl'|p|]; [| |intros [= <- _ _]; exact I].
  - destruct H as [_ ->]. destruct ms as [|m rest]; [discriminate|].
    destruct (word_loop _ _ _ _ _ _) as [[[[m' rest'] r1] d1]| | |]; cbn [bind]; try discriminate. destruct r1 as [w|].
    { intros [= <- _ _]. cbn [usable q_phase]. split; [discriminate|reflexivity]. }
    destruct (look d1) as [ex d2]. destruct ex. { intros [= <- _ _]. cbn [usable q_phase]. split; [discriminate|reflexivity]. }
    destruct (depth_limit ev <=? 1); [intros [= <- _ _]; exact I|].
    destruct (begin_phrases _ _) as [[ph r2]| | |] eqn:E; cbn [bind]; try discriminate. intros [= <- _ _]. cbn [q_phase]. pose proof (begin_shrinks _ _ _ _ E) as Hs.
    destruct ph; [|exact Hs|exact I]. exfalso. revert E. unfold begin_phrases. clear.
    destruct (feed_rest (alive m') rest') as [[rest2 ws]| | |]; cbn [bind]; try discriminate.
    destruct (check_tranches ws) as [tr| | |]; cbn [bind]; try discriminate.
    destruct (optimize_passes _ _ _ _) as [[[[[ms' ws'] q] g]|]| | |]; cbn [bind]; try discriminate.
    destruct ws' as [|w0 ws']; [discriminate|]. destruct q as [|p0 q]; [discriminate|].
    destruct (size_queue _ _) as [q'| | |]; cbn [bind]; try discriminate. destruct q' as [|p1 q']; [discriminate|]. cbn. discriminate.
  - destruct (p_words p); [discriminate|]. destruct (phrase_loop _ _ _ _ _ _) as [[[[ph n'] r2] d2]| | |] eqn:E; cbn [bind]; try discriminate.
    intros [= <- _ _]. cbn [q_phase]. pose proof (loop_shrinks _ _ _ _ _ _ _ _ _ _ H E) as Hs. destruct ph; [|exact Hs|exact I].
    exfalso. clear -E. revert E. generalize 0 at 1, d, (results_count ev). revert p. induction fuel as [|fuel IH]; intros p c dd n; cbn [phrase_loop]; [discriminate|].
    destruct (turn p) as [[[p'|] res]| | |]; cbn [bind]; try discriminate. destruct res; [discriminate|].
    destruct (if S c mod 256 =? 0 then look dd else (false, dd)) as [ex d3]. destruct ex; [discriminate|apply IH].
Qed.
Lemma calls_usable wl fuel ds : forall ev ev' rs, usable wl (q_phase ev) -> calls fuel ds ev = Ok (ev', rs) -> usable wl (q_phase ev').
Proof.
  induction ds as [|d ds IH]; intros ev ev' rs H; cbn [calls]; [intros [= <- _]; exact H|].
  destruct (next_within_deadline fuel d ev) as [[[ev1 r] d1]| | |] eqn:E; cbn [bind]; try discriminate.
  destruct (calls fuel ds ev1) as [[ev2 rs2]| | |] eqn:E2; cbn [bind]; try discriminate. intros [= <- _]. eapply IH; [|exact E2]. eapply next_usable; eauto.
Qed.
Lemma fresh_usable exs wl dl rl ev : fresh exs wl dl rl ev -> usable wl (q_phase ev).
Proof. unfold fresh, query_new. destruct exs; [discriminate|]. intros [= <-]. cbn. split; [discriminate|reflexivity]. Qed.

(** ** The estimates *)
Lemma total_bound e l : log_like e -> Forall (fun s => 1 <= s)%N l -> (total (est e) l <= 4096 * N.of_nat (length l))%N.
Proof.
  intros [H1 H2] H. induction H as [|s l Hs _ IH]; [apply N.le_refl|]. unfold total in *. cbn [map fold_right length].
  assert (est e s <= 4096)%N; [|lia]. destruct (N.eq_dec s 1) as [->|]; [rewrite H1; lia|apply H2; lia].
Qed.
Lemma total_zero e l : log_like e -> Forall (fun s => 1 <= s)%N l -> (total (est e) l = 0%N <-> Forall (fun s => s = 1%N) l).
Proof.
  intros [H1 H2] H. induction H as [|s l Hs _ IH]; [split; auto|]. unfold total in *. cbn [map fold_right]. split.
  - intros E. assert (Hx : est e s = 0%N) by lia. constructor; [|apply IH; lia]. destruct (N.eq_dec s 1) as [->|]; [reflexivity|]. specialize (H2 s ltac:(lia)). lia.
  - intros HF. inversion HF; subst. rewrite H1. apply IH in H4. lia.
Qed.
Definition small_enough (ovf : bool) (ph : qphase) : Prop :=
  match ph with QPhrase p => ovf = true -> (N.of_nat (length (p_sizes p)) <= 10485)%N | _ => True end.
Lemma progress_panics ovf e wl ev : log_like e -> usable wl (q_phase ev) -> small_enough ovf (q_phase ev) ->
  (progress ovf e ev = Panic <->
   match q_phase ev with
   | QWord _ _ => wl = []
   | QPhrase p => Forall (fun s => s = 1%N) (p_sizes p)
   | QDone => False
   end) /\ progress ovf e ev <> OutOfFuel /\ progress ovf e ev <> UB.
Proof.
  intros He Hu Hs. unfold progress. destruct (q_phase ev) as [ms wl'|p|].
  - destruct Hu as [Hm ->]. destruct ms as [|m ms]; [congruence|]. destruct wl; cbn [length Nat.eqb].
    + split; [split; auto|split; discriminate].
    + split; [split; discriminate|split; discriminate].
  - destruct Hu as (H1 & H2 & H3 & H4). destruct (p_queue p) as [|ph q] eqn:Eq; [congruence|]. destruct (p_layers p) as [|l ls]; [congruence|]. cbn [index nth_error bind].
    assert (Ht := total_zero e (p_sizes p) He H3). unfold search_estimate. fold (total (est e) (p_sizes p)). set (I := total (est e) (p_sizes p)) in *.
    assert (H5 := H4 (est e)). fold I in H5. unfold total in H5 at 1. set (Now := fold_right N.add 0%N (map (est e) (map total_size (ph :: q)))) in *.
    unfold sub32. replace (N.leb (Now - step_est e (l_word l) (depth ph)) I) with true by (symmetry; apply N.leb_le; lia). cbn [bind].
    set (x := (I - (Now - step_est e (l_word l) (depth ph)))%N). assert (Hx : (x <= I)%N) by (unfold x; lia).
    assert (Hm : exists h, mul32 ovf 100 x = Ok h).
    { unfold mul32. destruct (N.ltb_spec (100 * x) (2 ^ 32)) as [|Hge]; [eauto|]. destruct ovf; [|eauto]. exfalso. cbn [small_enough] in Hs. specialize (Hs eq_refl).
      pose proof (total_bound e (p_sizes p) He H3) as Hb. fold I in Hb. 
      change (2 ^ 32)%N with 4294967296%N in Hge. lia. }
    destruct Hm as (h & ->). cbn [bind]. unfold div32. destruct (N.eqb_spec I 0) as [E|E]; cbn [bind].
    + split; [split; [intros _; apply Ht; exact E|reflexivity]|split; discriminate].
    + split; [split; [discriminate|intros HF; apply Ht in HF; contradiction]|split; discriminate].
  - split; [split; [discriminate|contradiction]|split; discriminate].
Qed.
