(** Sessions with deadlines that have not passed when a turn begins: they end. *)
From Verif Require Export PropQuery DeadlineProofs SessionProofs.
Local Open Scope list_scope.

Lemma progress_cases ovf e ev : (exists x, progress ovf e ev = Ok x) \/ progress ovf e ev = Panic.
Proof.
  unfold progress. destruct (q_phase ev) as [[|m ms] wl|p|]; [auto| | |eauto].
  - destruct (_ =? _); eauto.
  - unfold index. destruct (nth_error (p_queue p) 0); cbn [bind]; [|auto]. destruct (nth_error (p_layers p) 0); cbn [bind]; [|auto].
    unfold sub32, mul32, div32. destruct ovf; destruct (N.leb _ _); cbn [bind]; auto; destruct (N.ltb _ _); cbn [bind]; auto; destruct (N.eqb _ _); cbn [bind]; eauto.
Qed.

(** A client that waits, with a clock that lets every turn begin. *)
Definition waiting (c : client) : Prop := forall i, send_ok c i = true /\ gone c i = false /\ over_time c i = false /\ time_left c i <> Some 0.
Definition ended (ovf : bool) (est : estimator) (fuel : nat) (ev : evaluator) (x : list effect * nat * (unit + ending)) : Prop :=
  (exists ms n' m', x = (map Sent ms, n', inl tt) /\ In (SComplete m') ms) \/
  (exists ms n' ds ev1 rs1, x = (map Sent ms, n', inr Panicked) /\ calls fuel ds ev = Ok (ev1, rs1 ++ [RTimeout]) /\ progress ovf est ev1 = Panic).
Lemma turn_ends ovf est ll fuel c : waiting c -> forall k i ev n ev' rs m, calls fuel (map (time_left c) (seq i k)) ev = Ok (ev', rs) -> In (RComplete m) rs ->
  ended ovf est fuel ev (turn_loop ovf est ll fuel k c i ev n).
Proof.
  intros Hw. assert (Hs : forall i, send_ok c i = true) by (intros i; apply (Hw i)).
  induction k as [|k IH]; intros i ev n ev' rs m; cbn [seq map calls]; [intros [= _ <-] []|]. cbn [turn_loop]. destruct (Hw i) as (_ & -> & -> & _).
  destruct (next_within_deadline fuel (time_left c i) ev) as [[[ev1 r] d1]| | |] eqn:E; cbn [bind]; try discriminate.
  destruct (calls fuel (map (time_left c) (seq (S i) k)) ev1) as [[ev2 rs1]| | |] eqn:E1; cbn [bind]; try discriminate. intros [= -> <-] Hin.
  assert (Hpan : forall ms n' ds ev3 rs3 (x : list effect * nat * (unit + ending)), calls fuel ds ev1 = Ok (ev3, rs3 ++ [RTimeout]) -> progress ovf est ev3 = Panic ->
    x = (map Sent ms, n', inr Panicked) -> ended ovf est fuel ev x).
  { intros ms n' ds ev3 rs3 x H1 H2 H3. right. exists ms, n', (time_left c i :: ds), ev3, (r :: rs3). split; [exact H3|]. split; [|exact H2]. cbn [calls]. rewrite E. cbn [bind]. rewrite H1. reflexivity. }
  unfold sbind at 1. cbn [slift sret]. cbv beta iota. destruct r as [|g|p|m0].
  - destruct Hin as [Hin|Hin]; [discriminate|]. unfold sbind at 1. destruct (progress_cases ovf est ev1) as [(x & Ex)|Ex].
    + rewrite Ex. cbn [slift sret]. cbv beta iota. unfold sbind at 1. unfold ssend. rewrite Hs.
      destruct (IH (S i) ev1 (S n) ev' rs1 m E1 Hin) as [(ms & n' & m' & H1 & H2)|(ms & n' & ds & ev3 & rs3 & H1 & H2 & H3)]; rewrite H1.
      * left. exists (SProcessing :: ms), n', m'. split; [reflexivity|right; exact H2].
      * exact (Hpan (SProcessing :: ms) n' ds ev3 rs3 _ H2 H3 eq_refl).
    + rewrite Ex. cbn [slift sstop]. right. exists [], n, [time_left c i], ev1, []. split; [reflexivity|]. split; [|exact Ex]. cbn [calls]. rewrite E. reflexivity.
  - destruct Hin as [Hin|Hin]; [discriminate|]. unfold sbind at 1. destruct (ssends_fine c (repeat SLog (ll g)) Hs n) as (n1 & ->).
    destruct (IH (S i) ev1 n1 ev' rs1 m E1 Hin) as [(ms & n' & m' & H1 & H2)|(ms & n' & ds & ev3 & rs3 & H1 & H2 & H3)]; rewrite H1.
    + left. exists (repeat SLog (ll g) ++ ms), n', m'. split; [rewrite map_app; reflexivity|apply in_app_iff; right; exact H2].
    + refine (Hpan (repeat SLog (ll g) ++ ms) n' ds ev3 rs3 _ H2 H3 _). rewrite map_app. reflexivity.
  - destruct Hin as [Hin|Hin]; [discriminate|]. unfold sbind at 1. unfold ssend. rewrite Hs.
    destruct (IH (S i) ev1 (S n) ev' rs1 m E1 Hin) as [(ms & n' & m' & H1 & H2)|(ms & n' & ds & ev3 & rs3 & H1 & H2 & H3)]; rewrite H1.
    + left. exists (SMatch p :: ms), n', m'. split; [reflexivity|right; exact H2].
    + exact (Hpan (SMatch p :: ms) n' ds ev3 rs3 _ H2 H3 eq_refl).
  - unfold ssend. rewrite Hs. left. exists [SComplete m0], (S n), m0. split; [reflexivity|left; reflexivity].
Qed.

(** Enough calls reach the end. *)
Lemma calls_end es exs wl dl rl rs0 : compiled_all es exs -> sorted_words wl -> query_run exs wl dl rl rs0 ->
  exists N, (dl <= 1 -> N = length wl) /\ forall fuel ev ds ev' rs, fresh exs wl dl rl ev -> Forall nonzero ds -> calls fuel ds ev = Ok (ev', rs) ->
    timeouts rs <= N /\ (N + length rs0 <= length ds -> exists k, filter no_timeout rs = rs0 ++ repeat (RComplete CalledRepeatedly) k).
Proof.
  intros Hc Hs Hr. destruct (compiled_good _ _ Hc) as [Hne Hg]. destruct (timeouts_bound exs wl dl Hne Hg Hs) as (F & HF0 & HF). exists (length wl + F).
  split; [intros Hd; rewrite (HF0 Hd); lia|]. intros fuel ev ds ev' rs Hfr Hd E.
  assert (Ht : timeouts rs <= length wl + F) by (apply (HF rl ev (Nat.max fuel F) ds ev' rs); [lia|exact Hfr|exact Hd|exact (calls_mono fuel _ (Nat.le_max_l _ _) _ _ _ E)]).
  split; [exact Ht|]. intros Hl. destruct (C28_deadlines_do_not_change_results es exs wl dl rl rs0 ev fuel ds ev' rs Hc Hs Hr Hfr E) as (_ & H & _).
  rewrite firstn_app in H. rewrite (firstn_all2 rs0) in H by lia. match type of H with _ = _ ++ firstn ?a (repeat ?x ?b) => destruct (firstn_repeat' x b a) as (j & _ & Ej); rewrite Ej in H end. exists j. exact H.
Qed.
Lemma session_ends ovf est ll u lists c txt q dict exs rs0 :
  first_message c = Some (Some txt) -> parse_query u txt = Ok (Parsed q) -> query_words lists q = Ok dict -> mapM (from_ast ovf) (q_expressions q) = Ok exs ->
  let wl := given_or (wordlist (q_options q)) dict in let dl := given_or (max_words (q_options q)) 10 in
  let rl := Some (given_or (Parser.results_limit (q_options q)) 300) in
  sorted_words wl -> query_run exs wl dl rl rs0 -> waiting c ->
  exists F K, forall fuel k, F <= fuel -> K <= k ->
    (exists ms, run_websocket ovf est ll u lists fuel k c = ([TotalAdd; ActiveAdd] ++ map Sent (opening q ++ ms) ++ [ActiveSub], Finished) /\ filter not_progress ms = whole_story ll rs0) \/
    (snd (run_websocket ovf est ll u lists fuel k c) = Panicked /\ exists ev ds ev1 rs1, fresh exs wl dl rl ev /\ calls fuel ds ev = Ok (ev1, rs1 ++ [RTimeout]) /\ progress ovf est ev1 = Panic).
Proof.
  intros Ef Ep Ew Em wl dl rl Hs Hr Hl. assert (Hsend : forall i, send_ok c i = true) by (intros i; apply (Hl i)).
  assert (Hrun := Hr). destruct Hrun as (f0 & k0 & ev0 & ev0' & Hf0 & _). destruct (fresh_shape _ _ _ _ _ Hf0) as [Hn _].
  assert (Hc : compiled_all (q_expressions q) exs) by (apply (mapM_compiled ovf); [intros En; rewrite En in Em; injection Em as <-; congruence|exact Em]).
  destruct (C29_evaluation_terminates _ exs wl dl rl Hc Hs) as [(F & HF) (rs1 & _ & Hu & l0 & m0 & E0 & Hl0)]. specialize (Hu rs0 Hr). subst rs1.
  destruct (calls_end _ _ _ _ _ _ Hc Hs Hr) as (N & _ & HN). exists F, (N + length rs0). intros fuel k HFu Hk.
  set (ds := map (time_left c) (seq 0 k)). assert (Hd : Forall nonzero ds) by (apply Forall_forall; intros d Hd; apply in_map_iff in Hd; destruct Hd as (i & <- & _); apply (Hl i)).
  destruct (HF fuel ev0 ds HFu Hf0) as (ev' & rs & E). destruct (HN fuel ev0 ds ev' rs Hf0 Hd E) as [_ Hend].
  destruct Hend as (j & Hend); [unfold ds; rewrite map_length, seq_length; exact Hk|].
  assert (Hin : In (RComplete m0) rs). { assert (H : In (RComplete m0) (filter no_timeout rs)) by (rewrite Hend, E0; apply in_app_iff; left; apply in_app_iff; right; left; reflexivity). apply filter_In in H. apply H. }
  destruct (run_websocket ovf est ll u lists fuel k c) as [t e] eqn:Et. destruct (session_spec _ _ _ _ _ _ _ _ _ _ _ _ _ _ _ Ef Ep Ew Em Hs Hr Et) as (ms & G1 & G2).
  destruct G2 as [(_ & _ & (j0 & H))|(ms' & -> & Gt & _ & _ & _)]; [rewrite Hsend in H; discriminate|].
  unfold run_websocket, run_websocket_from in Et. rewrite Ef in Et. unfold sbind at 1 in Et. cbn [sdo] in Et. unfold sbind at 1 in Et. unfold ssend at 1 in Et. rewrite Hsend in Et. unfold sbind at 1 in Et. cbn [sret] in Et. unfold sbind at 1 in Et. rewrite Ep in Et. cbn [slift sret] in Et.
  unfold sbind at 1 in Et. unfold ssend at 1 in Et. rewrite Hsend in Et. unfold sbind at 1 in Et. rewrite Ew in Et. cbn [slift sret] in Et. unfold sbind at 1 in Et.
  assert (Hev : evaluator_from_ast ovf q dict = Ok ev0) by (unfold evaluator_from_ast; rewrite Em; cbn [bind]; exact Hf0). rewrite Hev in Et. cbn [slift sret] in Et. rewrite map_const in Et. unfold sbind at 1 in Et. destruct (ssends_fine c (repeat SExpression (length (q_expressions q))) Hsend 2) as (n1 & Es). rewrite Es in Et.
  unfold sbind at 1 in Et.
  destruct (turn_ends ovf est ll fuel c Hl k 0 ev0 n1 ev' rs m0 E Hin) as [(ms1 & n2 & m' & H1 & H2)|(ms1 & n2 & ds1 & ev1 & rs1 & H1 & H2 & H3)]; rewrite H1 in Et.
  - left. cbn [sdo] in Et. injection Et as <- <-. exists ms'. split; [rewrite G1; reflexivity|]. refine (proj1 (told_complete _ _ _ Gt m' _)).
    assert (Ho : map Sent (opening q ++ ms1) = map Sent (opening q ++ ms')). { apply (app_inv_tail [ActiveSub]). apply (app_inv_head [TotalAdd; ActiveAdd]). rewrite <- G1. unfold opening. cbn [app map]. rewrite !map_app, <- !app_assoc. reflexivity. }
    rewrite !map_app in Ho. apply app_inv_head in Ho. assert (Hs2 : forall a b, map Sent a = map Sent b -> a = b) by (induction a as [|x a IHa]; intros [|y b] H; try discriminate; [reflexivity|injection H as -> H; f_equal; auto]).
    rewrite <- (Hs2 _ _ Ho). exact H2.
  - right. injection Et as _ <-. split; [reflexivity|]. exists ev0, ds1, ev1, rs1. auto.
Qed.
