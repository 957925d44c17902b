(** Proofs about websocket sessions and wordlists of the server. *)
From Coq Require Import String ZArith Permutation Sorted.
From Verif Require LinesProofs WordsProofs.
From Verif Require Export AppsProofs.
Local Open Scope list_scope.

(** ** Wordlists *)
Lemma words_for_iff lists q ws : NoDup (map fst lists) -> (query_words lists q = Ok ws <-> words_for lists q ws).
Proof.
  intros Hd. unfold query_words, words, DEFAULT_WORDLIST. destruct (dictionary (q_options q)) as [name|] eqn:E; cbn [unwrap_or].
  - destruct (find_words name lists) as [w|] eqn:F.
    + pose proof F as F'. apply (find_words_iff _ _ _ Hd) in F'. split.
      * intros [= <-]. exact (words_named _ _ _ _ E F').
      * intros [n w' En Hi|w' Hn _]; [|destruct (Hn name E); apply in_map_iff; exists (name, w); auto]. rewrite E in En. injection En as <-. apply (find_words_iff _ _ _ Hd) in Hi. congruence.
    + apply find_words_none in F. split.
      * destruct (find_words (str "default") lists) as [w|] eqn:G; [|discriminate]. intros [= <-]. apply words_default; [intros n En; rewrite E in En; injection En as <-; exact F|]. apply (find_words_iff _ _ _ Hd). exact G.
      * intros [n w' En Hi|w' Hn Hi]; [rewrite E in En; injection En as <-; destruct F; apply in_map_iff; exists (name, w'); auto|]. apply (find_words_iff _ _ _ Hd) in Hi. rewrite Hi. reflexivity.
  - split.
    + destruct (find_words (str "default") lists) as [w|] eqn:G; [|discriminate]. intros [= <-]. apply words_default; [rewrite E; discriminate|]. apply (find_words_iff _ _ _ Hd). exact G.
    + intros [n w' En _|w' _ Hi]; [congruence|]. apply (find_words_iff _ _ _ Hd) in Hi. rewrite Hi. reflexivity.
Qed.
Lemma query_words_sound lists q ws : NoDup (map fst lists) -> words_for lists q ws -> query_words lists q = Ok ws.
Proof. intros Hd. apply words_for_iff. exact Hd. Qed.
Lemma words_for_some lists q : NoDup (map fst lists) -> (exists ws, words_for lists q ws) \/ query_words lists q = Panic.
Proof.
  intros Hd. destruct (query_words lists q) as [ws| | |] eqn:E; [left; exists ws; apply words_for_iff; assumption|right; reflexivity| |]; unfold query_words, words in E; destruct (find_words _ lists); try discriminate; destruct (find_words DEFAULT_WORDLIST lists); discriminate.
Qed.

(** ** What is sent *)
Lemma ssends_effects c rs : forall n, exists j n' r, ssends c rs n = (map Sent (firstn j rs), n', r) /\
  (r = inl tt /\ j = length rs \/ r = inr Failed /\ exists i, send_ok c i = false).
Proof.
  induction rs as [|r rs IH]; intros n; [exists 0, n, (inl tt); auto|]. cbn [ssends]. unfold sbind, ssend. destruct (send_ok c n) eqn:E.
  - destruct (IH (S n)) as (j & n' & r' & -> & H). exists (S j), n', r'. split; [reflexivity|]. destruct H as [[-> ->]|H]; auto.
  - exists 0, (S n), (inr Failed). split; [reflexivity|]. right. eauto.
Qed.
Lemma ssend_effects c r n : exists j n' x, ssend c r n = (map Sent (firstn j [r]), n', x) /\ (x = inl tt /\ j = 1 \/ x = inr Failed /\ j = 0 /\ exists i, send_ok c i = false).
Proof. unfold ssend. destruct (send_ok c n) eqn:E; [exists 1|exists 0]; do 2 eexists; (split; [reflexivity|]); eauto 6. Qed.

(** The messages about the responses of calls with deadlines. *)
Inductive heard (ll : bool -> nat) : list response -> list reply -> Prop :=
| heard_no_more rs : heard ll rs []
| heard_time_up rs : heard ll rs [STimeout]
| heard_progress rs ms : heard ll rs ms -> heard ll (RTimeout :: rs) (SProcessing :: ms)
| heard_match p rs ms : heard ll rs ms -> heard ll (RMatch p :: rs) (SMatch p :: ms)
| heard_log g rs ms : heard ll rs ms -> heard ll (RLogs g :: rs) (repeat SLog (ll g) ++ ms)
| heard_part g n rs : n <= ll g -> heard ll (RLogs g :: rs) (repeat SLog n)
| heard_end m rs : heard ll (RComplete m :: rs) [SComplete m].
Lemma heard_told ll rs ms : heard ll rs ms -> forall n l m tl, Forall no_complete l -> filter no_timeout rs = firstn n (l ++ RComplete m :: tl) -> told ll (l ++ [RComplete m]) ms.
Proof.
  induction 1 as [rs|rs|rs ms _ IH|p rs ms _ IH|g rs ms _ IH|g j rs Hj|m' rs]; intros n l m tl Hl E; try constructor; cbn [filter no_timeout] in E.
  - exact (IH _ _ _ _ Hl E).
  - destruct n as [|n]; [discriminate|]. destruct l as [|r l]; cbn [app firstn] in *; [discriminate|]. injection E as <- E. constructor. inversion_clear Hl. exact (IH _ _ _ _ H0 E).
  - destruct n as [|n]; [discriminate|]. destruct l as [|r l]; cbn [app firstn] in *; [discriminate|]. injection E as <- E. constructor. inversion_clear Hl. exact (IH _ _ _ _ H0 E).
  - destruct n as [|n]; [discriminate|]. destruct l as [|r l]; cbn [app firstn] in *; [discriminate|]. injection E as <- E. constructor. exact Hj.
  - destruct n as [|n]; [discriminate|]. destruct l as [|r l]; cbn [app firstn] in *; [injection E as -> _; constructor|]. injection E as <- E. inversion_clear Hl. destruct (H m' eq_refl).
Qed.

(** How the turns end. *)
Lemma turns_cons r ms : turns (r :: ms) = (if of_a_turn r then 1 else 0) + turns ms.
Proof. unfold turns. cbn [filter]. destruct (of_a_turn r); reflexivity. Qed.
Lemma turns_logs n ms : turns (repeat SLog n ++ ms) = turns ms.
Proof. induction n as [|n IH]; [reflexivity|]. cbn [repeat app]. rewrite turns_cons. exact IH. Qed.
Lemma at_end_more a ms : at_end ms -> at_end (a ++ ms).
Proof. intros (l & r & -> & H). exists (a ++ l), r. rewrite app_assoc. auto. Qed.
Lemma firstn_repeat' {A} (x : A) n : forall j, exists m, m <= n /\ firstn j (repeat x n) = repeat x m.
Proof. induction n as [|n IH]; intros [|j]; [exists 0; auto|exists 0; auto|exists 0; split; [lia|reflexivity]|]. destruct (IH j) as (m & Hm & E). exists (S m). split; [lia|]. cbn. rewrite E. reflexivity. Qed.

Lemma turn_said ovf est ll fuel c k : forall i ev n, exists ds ev' rs ms n' r, calls fuel ds ev = Ok (ev', rs) /\
  turn_loop ovf est ll fuel k c i ev n = (map Sent ms, n', r) /\ heard ll rs ms /\ r <> inr Finished /\
  (forall j, i <= j -> gone c j = true \/ over_time c j = true -> i + turns ms <= j) /\
  (In STimeout ms -> exists j, i + turns ms <= j /\ over_time c j = true) /\
  (r = inl tt -> at_end ms \/ exists j, gone c j = true).
Proof.
  induction k as [|k IH]; intros i ev n.
  { exists [], ev, [], [], n, (inr Unfinished). cbn. split; [reflexivity|]. split; [reflexivity|]. split; [constructor|]. split; [discriminate|]. split; [intros j Hj _; unfold turns; cbn; lia|]. split; [intros []|discriminate]. }
  (* nothing is said *)
  assert (Hstop : forall n' r, r <> inr Finished -> (r = inl tt -> exists j, gone c j = true) -> exists ds ev' rs ms n'' r', calls fuel ds ev = Ok (ev', rs) /\ ([] : list effect, n' : nat, r : unit + ending) = (map Sent ms, n'', r') /\ heard ll rs ms /\ r' <> inr Finished /\
    (forall j, i <= j -> gone c j = true \/ over_time c j = true -> i + turns ms <= j) /\ (In STimeout ms -> exists j, i + turns ms <= j /\ over_time c j = true) /\ (r' = inl tt -> at_end ms \/ exists j, gone c j = true)).
  { intros n' r Hr Hg. exists [], ev, [], [], n', r. split; [reflexivity|]. split; [reflexivity|]. split; [constructor|]. split; [exact Hr|]. split; [intros j Hj _; unfold turns; cbn; lia|]. split; [intros []|]. auto. }
  cbn [turn_loop]. destruct (gone c i) eqn:Eg; [apply Hstop; [discriminate|eauto]|]. destruct (over_time c i) eqn:Eo.
  { unfold ssend. destruct (send_ok c n); [|apply Hstop; discriminate]. exists [], ev, [], [STimeout], (S n), (inl tt). split; [reflexivity|]. split; [reflexivity|]. split; [constructor|]. split; [discriminate|].
    split; [intros j Hj _; unfold turns; cbn; lia|]. split; [intros _; exists i; split; [unfold turns; cbn; lia|exact Eo]|]. intros _. left. exists [], STimeout. auto. }
  destruct (next_within_deadline fuel (time_left c i) ev) as [[[ev1 r] d1]| | |] eqn:E; [|apply Hstop; discriminate|apply Hstop; discriminate|apply Hstop; discriminate].
  assert (Hcall : forall ds ev' rs, calls fuel ds ev1 = Ok (ev', rs) -> calls fuel (time_left c i :: ds) ev = Ok (ev', r :: rs)) by (intros ds ev' rs Hc; cbn [calls]; rewrite E; cbn [bind]; rewrite Hc; reflexivity).
  assert (Hj : forall j, i <= j -> gone c j = true \/ over_time c j = true -> S i <= j) by (intros j Hij Hj; assert (i <> j) by (intros <-; destruct Hj; congruence); lia).
  unfold sbind at 1. cbn [slift sret]. cbv beta iota. destruct r as [|g|p|m].
  - unfold sbind at 1. destruct (progress ovf est ev1) as [pr| | |]; cbn [slift sret sstop]; cbv beta iota; [|apply Hstop; discriminate|apply Hstop; discriminate|apply Hstop; discriminate].
    unfold sbind at 1. unfold ssend. destruct (send_ok c n); [|apply Hstop; discriminate]. destruct (IH (S i) ev1 (S n)) as (ds & ev' & rs & ms & n' & r & G1 & G2 & G3 & G4 & G5 & G6 & G7). rewrite G2.
    exists (time_left c i :: ds), ev', (RTimeout :: rs), (SProcessing :: ms), n', r. split; [apply Hcall; exact G1|]. split; [reflexivity|]. split; [constructor; exact G3|]. split; [exact G4|]. rewrite turns_cons. cbn [of_a_turn].
    split; [intros j H1 H2; specialize (G5 j (Hj j H1 H2) H2); lia|]. split; [intros [H|H]; [discriminate|]; destruct (G6 H) as (j & H1 & H2); exists j; split; [lia|exact H2]|]. intros Hr. destruct (G7 Hr) as [H|H]; [left; exact (at_end_more [_] _ H)|right; exact H].
  - unfold sbind at 1. destruct (ssends_effects c (repeat SLog (ll g)) n) as (j & n1 & x & -> & Hx). destruct Hx as [[-> ->]|[-> _]].
    + rewrite firstn_all. destruct (IH (S i) ev1 n1) as (ds & ev' & rs & ms & n' & r & G1 & G2 & G3 & G4 & G5 & G6 & G7). rewrite G2.
      exists (time_left c i :: ds), ev', (RLogs g :: rs), (repeat SLog (ll g) ++ ms), n', r. split; [apply Hcall; exact G1|]. split; [rewrite map_app; reflexivity|]. split; [constructor; exact G3|]. split; [exact G4|]. rewrite turns_logs.
      split; [intros j H1 H2; specialize (G5 j (Hj j H1 H2) H2); lia|]. split; [intros H; apply in_app_iff in H; destruct H as [H|H]; [apply repeat_spec in H; discriminate|]; destruct (G6 H) as (j & H1 & H2); exists j; split; [lia|exact H2]|].
      intros Hr. destruct (G7 Hr) as [H|H]; [left; apply at_end_more; exact H|right; exact H].
    + destruct (firstn_repeat' SLog (ll g) j) as (m & Hm & ->). exists [time_left c i], ev1, [RLogs g], (repeat SLog m), n1, (inr Failed). split; [apply (Hcall [] ev1 []); reflexivity|]. split; [reflexivity|]. split; [constructor; exact Hm|]. split; [discriminate|].
      assert (Ht : turns (repeat SLog m) = 0) by (rewrite <- (app_nil_r (repeat SLog m)), turns_logs; reflexivity). rewrite Ht. split; [intros; lia|]. split; [intros H; apply repeat_spec in H; discriminate|discriminate].
  - unfold sbind at 1. unfold ssend. destruct (send_ok c n); [|apply Hstop; discriminate]. destruct (IH (S i) ev1 (S n)) as (ds & ev' & rs & ms & n' & r & G1 & G2 & G3 & G4 & G5 & G6 & G7). rewrite G2.
    exists (time_left c i :: ds), ev', (RMatch p :: rs), (SMatch p :: ms), n', r. split; [apply Hcall; exact G1|]. split; [reflexivity|]. split; [constructor; exact G3|]. split; [exact G4|]. rewrite turns_cons. cbn [of_a_turn].
    split; [intros j H1 H2; specialize (G5 j (Hj j H1 H2) H2); lia|]. split; [intros [H|H]; [discriminate|]; destruct (G6 H) as (j & H1 & H2); exists j; split; [lia|exact H2]|]. intros Hr. destruct (G7 Hr) as [H|H]; [left; exact (at_end_more [_] _ H)|right; exact H].
  - unfold ssend. destruct (send_ok c n); [|apply Hstop; discriminate]. exists [time_left c i], ev1, [RComplete m], [SComplete m], (S n), (inl tt). split; [apply (Hcall [] ev1 []); reflexivity|]. split; [reflexivity|]. split; [constructor|]. split; [discriminate|].
    split; [intros j H1 H2; specialize (Hj j H1 H2); unfold turns; cbn; lia|]. split; [intros [H|[]]; discriminate|]. intros _. left. exists [], (SComplete m). eauto.
Qed.

(** ** Whole sessions *)
Lemma map_const {A B} (b : B) (l : list A) : map (fun _ => b) l = repeat b (length l).
Proof. induction l as [|a l IH]; [reflexivity|]. cbn. rewrite IH. reflexivity. Qed.
Lemma session_spec ovf est ll u lists fuel k c txt q dict exs rs0 t e :
  first_message c = Some (Some txt) -> parse_query u txt = Ok (Parsed q) -> query_words lists q = Ok dict -> mapM (from_ast ovf) (q_expressions q) = Ok exs ->
  let wl := given_or (wordlist (q_options q)) dict in let dl := given_or (max_words (q_options q)) 10 in
  sorted_words wl -> query_run exs wl dl (Some (given_or (Parser.results_limit (q_options q)) 300)) rs0 ->
  run_websocket ovf est ll u lists fuel k c = (t, e) ->
  exists ms, t = [TotalAdd; ActiveAdd] ++ map Sent ms ++ match e with Finished => [ActiveSub] | _ => [] end /\
    ((e = Failed /\ (exists n, ms = firstn n (opening q)) /\ exists j, send_ok c j = false) \/
     exists ms', ms = opening q ++ ms' /\ told ll rs0 ms' /\
      (forall j, gone c j = true \/ over_time c j = true -> turns ms' <= j) /\
      (In STimeout ms' -> exists j, turns ms' <= j /\ over_time c j = true) /\
      (e = Finished -> at_end ms' \/ exists j, gone c j = true)).
Proof.
  intros Ef Ep Ew Em wl dl Hs Hr H. unfold run_websocket, run_websocket_from in H. rewrite Ef in H.
  assert (Hrun := Hr). destruct Hrun as (f0 & k0 & ev0 & ev0' & Hf0 & _). destruct (fresh_shape _ _ _ _ _ Hf0) as [Hn _].
  assert (Hc : compiled_all (q_expressions q) exs) by (apply (mapM_compiled ovf); [intros En; rewrite En in Em; injection Em as <-; congruence|exact Em]).
  unfold sbind at 1 in H. cbn [sdo] in H. unfold sbind at 1 in H. unfold ssend at 1 in H. destruct (send_ok c 0) eqn:E0.
  2:{ injection H as <- <-. exists []. split; [reflexivity|]. left. split; [reflexivity|]. split; [exists 0; reflexivity|eauto]. }
  unfold sbind at 1 in H. cbn [sret] in H. unfold sbind at 1 in H. rewrite Ep in H. cbn [slift sret] in H. unfold sbind at 1 in H. unfold ssend at 1 in H. destruct (send_ok c 1) eqn:E1.
  2:{ injection H as <- <-. exists [SRunning]. split; [reflexivity|]. left. split; [reflexivity|]. split; [exists 1; reflexivity|eauto]. }
  unfold sbind at 1 in H. rewrite Ew in H. cbn [slift sret] in H. unfold sbind at 1 in H. fold wl in Hr.
  assert (Hev : evaluator_from_ast ovf q dict = Ok ev0).
  { unfold evaluator_from_ast. rewrite Em. cbn [bind]. exact Hf0. }
  rewrite Hev in H. cbn [slift sret] in H. rewrite map_const in H. unfold sbind at 1 in H. destruct (ssends_effects c (repeat SExpression (length (q_expressions q))) 2) as (j & n1 & x & Es & Hx). rewrite Es in H.
  destruct Hx as [[-> ->]|[-> (j' & Hj')]].
  2:{ cbn [app] in H. injection H as <- <-. exists (SRunning :: SParsed :: firstn j (repeat SExpression (length (q_expressions q)))). split; [rewrite !app_nil_r; reflexivity|]. left. split; [reflexivity|]. split; [exists (S (S j)); reflexivity|eauto]. }
  rewrite firstn_all in H. unfold sbind at 1 in H. destruct (turn_said ovf est ll fuel c k 0 ev0 n1) as (ds & ev' & rs & ms & n' & r & G1 & G2 & G3 & G4 & G5 & G6 & G7). rewrite G2 in H.
  assert (Htold : told ll rs0 ms).
  { destruct (C28_deadlines_do_not_change_results _ exs wl dl _ rs0 ev0 fuel ds ev' rs Hc Hs Hr Hf0 G1) as (_ & C2 & _).
    destruct (C29_evaluation_terminates _ exs wl dl (Some (given_or (Parser.results_limit (q_options q)) 300)) Hc Hs) as [_ (rs1 & _ & Hu & l0 & m0 & E2 & Hl0)]. specialize (Hu rs0 Hr). subst rs1. subst rs0.
    rewrite <- app_assoc in C2. cbn [app] in C2. exact (heard_told _ _ _ G3 _ _ _ _ Hl0 C2). }
  destruct r as [[]|e'].
  - cbn [sdo] in H. injection H as <- <-. exists (opening q ++ ms). split; [unfold opening; cbn [app map]; rewrite !map_app, <- !app_assoc; reflexivity|]. right. exists ms. split; [reflexivity|]. split; [exact Htold|].
    split; [intros i Hi; specialize (G5 i (Nat.le_0_l _) Hi); lia|]. split; [exact G6|]. intros _. apply G7. reflexivity.
  - injection H as <- <-. exists (opening q ++ ms). split.
    + unfold opening. cbn [app map]. rewrite !map_app, <- !app_assoc. cbn [app]. destruct e'; rewrite ?app_nil_r; try reflexivity. congruence.
    + right. exists ms. split; [reflexivity|]. split; [exact Htold|]. split; [intros i Hi; specialize (G5 i (Nat.le_0_l _) Hi); lia|]. split; [exact G6|]. intros ->. congruence.
Qed.

(** ** Complete sessions *)
Lemma filter_logs n ms : filter not_progress (repeat SLog n ++ ms) = repeat SLog n ++ filter not_progress ms.
Proof. induction n as [|n IH]; [reflexivity|]. cbn [repeat app filter not_progress]. rewrite IH. reflexivity. Qed.
Lemma told_complete ll rs ms : told ll rs ms -> forall m, In (SComplete m) ms -> filter not_progress ms = whole_story ll rs /\ exists l, rs = l ++ [RComplete m].
Proof.
  induction 1 as [rs|rs|rs ms _ IH|p rs ms _ IH|g rs ms _ IH|g n rs _|m0]; intros m H.
  - destruct H.
  - destruct H as [H|[]]; discriminate.
  - destruct H as [H|H]; [discriminate|]. exact (IH m H).
  - destruct H as [H|H]; [discriminate|]. destruct (IH m H) as [E (l & ->)]. split; [cbn [filter not_progress]; rewrite E; reflexivity|]. exists (RMatch p :: l). reflexivity.
  - apply in_app_iff in H. destruct H as [H|H]; [apply repeat_spec in H; discriminate|]. destruct (IH m H) as [E (l & ->)]. split; [rewrite filter_logs, E; reflexivity|]. exists (RLogs g :: l). reflexivity.
  - apply repeat_spec in H. discriminate.
  - destruct H as [[= <-]|[]]. split; [reflexivity|exists []; reflexivity].
Qed.
Lemma ssends_fine c rs : (forall i, send_ok c i = true) -> forall n, exists n', ssends c rs n = (map Sent rs, n', inl tt).
Proof.
  intros H. induction rs as [|r rs IH]; intros n; [exists n; reflexivity|]. cbn [ssends]. unfold sbind, ssend. rewrite H. destruct (IH (S n)) as (n' & ->). exists n'. reflexivity.
Qed.
(** A client that listens to the end, without deadlines. *)
Definition listening (c : client) : Prop := forall i, send_ok c i = true /\ gone c i = false /\ over_time c i = false /\ time_left c i = None.
Lemma turn_completes ovf est ll fuel c : listening c -> forall rs i ev n m k ev', calls fuel (repeat None (S (length rs))) ev = Ok (ev', rs ++ [RComplete m]) -> Forall no_complete rs -> length rs < k ->
  Forall (fun r => r <> RTimeout) rs ->
  exists n', turn_loop ovf est ll fuel k c i ev n = (map Sent (whole_story ll (rs ++ [RComplete m])), n', inl tt).
Proof.
  intros Hl. assert (Hs : forall i, send_ok c i = true) by (intros i; apply (Hl i)).
  induction rs as [|r rs IH]; intros i ev n m k ev' H Hn Hk Ht; destruct k as [|k]; cbn [length] in *; try lia; cbn [turn_loop]; destruct (Hl i) as (_ & -> & -> & ->); cbn [repeat calls] in H;
    destruct (next_within_deadline fuel None ev) as [[[ev1 r1] d1]| | |]; cbn [bind] in H; try discriminate.
  - cbn [calls bind app] in H. injection H as _ ->. unfold sbind, ssend. cbn [slift sret]. rewrite Hs. eauto.
  - change (match calls fuel (None :: repeat None (length rs)) ev1 with Ok (a, b) => Ok (a, r1 :: b) | Panic => Panic | UB => UB | OutOfFuel => OutOfFuel end = Ok (ev', (r :: rs) ++ [RComplete m])) in H || idtac.
    destruct (calls fuel (None :: repeat None (length rs)) ev1) as [[ev2 rs2]| | |] eqn:E; cbn [bind] in H; try discriminate. injection H as -> -> ->.
    inversion_clear Hn as [|? ? Hn1 Hn2]. inversion_clear Ht as [|? ? Ht1 Ht2]. destruct r as [|g|p|m'].
    + congruence.
    + unfold sbind at 1. cbn [slift sret]. unfold sbind at 1. destruct (ssends_fine c (repeat SLog (ll g)) Hs n) as (n1 & ->). destruct (IH (S i) ev1 n1 m k ev' E Hn2 ltac:(lia) Ht2) as (n2 & ->). exists n2. unfold whole_story. cbn [app flat_map]. rewrite map_app. reflexivity.
    + unfold sbind at 1. cbn [slift sret]. unfold sbind at 1. unfold ssend. rewrite Hs. destruct (IH (S i) ev1 (S n) m k ev' E Hn2 ltac:(lia) Ht2) as (n2 & ->). exists n2. reflexivity.
    + destruct (Hn1 m' eq_refl).
Qed.
Lemma Forall2_None ds (rs : list response) : Forall (eq (None : deadline)) ds -> Forall2 (fun d r => d = None -> r <> RTimeout) ds rs -> Forall (fun r => r <> RTimeout) rs.
Proof. intros H H2. induction H2 as [|d r ds rs Hr _ IH]; constructor; inversion_clear H; [apply Hr; congruence|apply IH; assumption]. Qed.
Lemma filter_all {A} (f : A -> bool) l : Forall (fun x => f x = true) l -> filter f l = l.
Proof. induction 1 as [|x l Hx _ IH]; [reflexivity|]. cbn. rewrite Hx, IH. reflexivity. Qed.
Lemma session_completes ovf est ll u lists c txt q dict exs rs0 :
  first_message c = Some (Some txt) -> parse_query u txt = Ok (Parsed q) -> query_words lists q = Ok dict -> mapM (from_ast ovf) (q_expressions q) = Ok exs ->
  let wl := given_or (wordlist (q_options q)) dict in let dl := given_or (max_words (q_options q)) 10 in
  sorted_words wl -> query_run exs wl dl (Some (given_or (Parser.results_limit (q_options q)) 300)) rs0 -> listening c ->
  exists F, forall fuel k, F <= fuel -> length rs0 <= k -> run_websocket ovf est ll u lists fuel k c = ([TotalAdd; ActiveAdd] ++ map Sent (opening q ++ whole_story ll rs0) ++ [ActiveSub], Finished).
Proof.
  intros Ef Ep Ew Em wl dl Hs Hr Hl. assert (Hsend : forall i, send_ok c i = true) by (intros i; apply (Hl i)).
  assert (Hrun := Hr). destruct Hrun as (f0 & k0 & ev0 & ev0' & Hf0 & _). destruct (fresh_shape _ _ _ _ _ Hf0) as [Hn _].
  assert (Hc : compiled_all (q_expressions q) exs) by (apply (mapM_compiled ovf); [intros En; rewrite En in Em; injection Em as <-; congruence|exact Em]).
  destruct (C29_evaluation_terminates _ exs wl dl (Some (given_or (Parser.results_limit (q_options q)) 300)) Hc Hs) as [(F & HF) (rs1 & _ & Hu & l0 & m0 & E0 & Hl0)]. specialize (Hu rs0 Hr). subst rs1.
  exists F. intros fuel k Hfu Hk. unfold run_websocket, run_websocket_from. rewrite Ef. unfold sbind at 1. cbn [sdo]. unfold sbind at 1. unfold ssend at 1. rewrite Hsend. unfold sbind at 1. cbn [sret]. unfold sbind at 1. rewrite Ep. cbn [slift sret].
  unfold sbind at 1. unfold ssend at 1. rewrite Hsend. unfold sbind at 1. rewrite Ew. cbn [slift sret]. unfold sbind at 1.
  assert (Hev : evaluator_from_ast ovf q dict = Ok ev0) by (unfold evaluator_from_ast; rewrite Em; cbn [bind]; exact Hf0). rewrite Hev. cbn [slift sret]. rewrite map_const. unfold sbind at 1. destruct (ssends_fine c (repeat SExpression (length (q_expressions q))) Hsend 2) as (n1 & ->).
  destruct (HF fuel ev0 (repeat None (length rs0)) Hfu Hf0) as (ev' & rs & E). destruct (C28_deadlines_do_not_change_results _ exs wl dl _ rs0 ev0 fuel _ ev' rs Hc Hs Hr Hf0 E) as (C1 & C2 & C3).
  assert (Hnt : Forall (fun r => r <> RTimeout) rs) by (apply (Forall2_None (repeat None (length rs0))); [apply Forall_forall; intros x Hx; apply repeat_spec in Hx; congruence|exact C3]).
  assert (Hfa : filter no_timeout rs = rs) by (apply filter_all; eapply Forall_impl; [|exact Hnt]; intros [] Hx; try reflexivity; congruence).
  assert (Ht0 : timeouts rs = 0). { unfold timeouts. clear - Hnt. induction Hnt as [|x l Hx _ IH]; [reflexivity|]. destruct x; cbn; try assumption. congruence. }
  rewrite Ht0, Nat.sub_0_r, Hfa, repeat_length, firstn_app, Nat.sub_diag, firstn_all, firstn_O, app_nil_r in C2. subst rs. subst rs0. rewrite app_length in E, Hk. cbn [length] in E, Hk. rewrite Nat.add_1_r in E. apply Forall_app in Hnt. destruct Hnt as [Hnt _].
  unfold sbind at 1. destruct (turn_completes ovf est ll fuel c Hl l0 0 ev0 n1 m0 k ev' E Hl0 ltac:(lia) Hnt) as (n2 & ->). cbn [sdo]. unfold opening. cbn [app map]. rewrite !map_app, <- !app_assoc. reflexivity.
Qed.

(** ** A wordlist as a text *)
Lemma wordlist_lines ws : Forall (fun w => ~ In 10%N (w_text w)) ws -> text_lines (flat_map (fun w => w_text w ++ [10%N]) ws) (map w_text ws).
Proof. induction 1 as [|w ws Hw _ IH]; [constructor|]. cbn [flat_map map]. rewrite <- app_assoc. constructor; assumption. Qed.
Lemma load_line_text u s line s' w : load_line u s line = (s', Some w) -> exists a, line = a ++ w_text w.
Proof.
  unfold load_line. destruct (parse_line line) as [t sc] eqn:E. intros H.
  assert (Hw : w_text w = t). { destruct (_ && _ && _) in H; [discriminate|]. destruct (existsb _ _) in H; [discriminate|]. injection H as _ <-. reflexivity. }
  rewrite Hw. unfold parse_line in E. destruct (split_once 9 line) as [[a b]|] eqn:Es; [|injection E as <- _; exists []; reflexivity]. destruct (parse_u32 a); [|injection E as <- _; exists []; reflexivity].
  injection E as <- _. apply split_once_some in Es. destruct Es as [-> _]. exists (a ++ [9%N]). rewrite <- app_assoc. reflexivity.
Qed.
Lemma load_texts u lines : forall s w, In w (load_lines u s lines) -> exists line a, In line lines /\ line = a ++ w_text w.
Proof.
  induction lines as [|line lines IH]; intros s w H; [destruct H|]. cbn [load_lines] in H. destruct (load_line u s line) as [s' [w'|]] eqn:E.
  - destruct H as [<-|H]; [destruct (load_line_text _ _ _ _ _ E) as (a & Ha); exists line, a; split; [left; reflexivity|exact Ha]|]. destruct (IH _ _ H) as (l & a & H1 & H2). exists l, a. split; [right; exact H1|exact H2].
  - destruct (IH _ _ H) as (l & a & H1 & H2). exists l, a. split; [right; exact H1|exact H2].
Qed.
Lemma loaded_lines u files name ws : Forall (fun f => Forall (fun l => ~ In 10%N l) (snd f)) files -> In (name, ws) (load_lists u files []) -> Forall (fun w => ~ In 10%N (w_text w)) ws.
Proof.
  intros Hf H. apply load_names in H. destruct H as (b & f & lines & a & -> & _ & -> & _). apply Forall_app in Hf. destruct Hf as [_ Hf]. inversion_clear Hf as [|? ? H1 _]. cbn [snd] in H1. apply Forall_forall. intros w Hw Hi.
  apply (Permutation_in _ (sort_words_perm _)) in Hw. destruct (load_texts _ _ _ _ Hw) as (l & p & Hl & ->). rewrite Forall_forall in H1. apply (H1 _ Hl). apply in_app_iff. right. exact Hi.
Qed.

(** ** Words in order *)
Lemma sorted_le ws : StronglySorted WordsProofs.word_le ws -> sorted_words ws.
Proof.
  induction 1 as [|w ws _ IH Hf]; intros i j x y Hij Hx Hy; [destruct i; discriminate|]. destruct i as [|i], j as [|j]; cbn [nth_error] in Hx, Hy; try lia.
  - assert (x = y) by congruence. subst. lia.
  - injection Hx as <-. rewrite Forall_forall in Hf. specialize (Hf y (nth_error_In _ _ Hy)). unfold WordsProofs.word_le, word_compare, lex in Hf. destruct (Nat.compare_spec (w_tranche w) (w_tranche y)); lia || congruence.
  - apply (IH i j); [lia|exact Hx|exact Hy].
Qed.
Lemma loaded_sorted u files : Forall (fun l => sorted_words (snd l)) (load_lists u files []).
Proof. apply Forall_forall. intros [name ws] H. apply load_names in H. destruct H as (b & f & lines & a & _ & _ & -> & _). cbn [snd]. apply sorted_le. unfold load_wordlist. apply WordsProofs.sort_words_sorted. Qed.
Lemma query_sorted u t q wl : parse_query u t = Ok (Parsed q) -> wordlist (q_options q) = Some wl -> sorted_words wl.
Proof.
  intros H Hw. apply LinesProofs.parse_inv in H. destruct H as (q0 & _ & H). apply LinesProofs.finish_inv in H. destruct H as (_ & _ & Eo). rewrite Eo in Hw. cbn in Hw. destruct (wordlist (q_options q0)); [|discriminate]. injection Hw as <-. apply sorted_le, WordsProofs.sort_words_sorted.
Qed.
Lemma question_sorted s t q dict (n : nat) x : in_order s -> parse_query (sv_unicode s) t = Ok (Parsed q) -> words_for (sv_lists s) q dict -> question_of (sv_ovf s) q dict n x -> sorted_words (qu_words x).
Proof.
  intros [_ Ho] Hp Hw (_ & -> & _). destruct (wordlist (q_options q)) as [wl|] eqn:E; [exact (query_sorted _ _ _ _ Hp E)|]. cbn. rewrite Forall_forall in Ho. destruct Hw as [name ws _ H|ws _ H]; exact (Ho _ H).
Qed.

Lemma question_answered s t q dict (n : nat) x : in_order s -> parse_query (sv_unicode s) t = Ok (Parsed q) -> words_for (sv_lists s) q dict -> question_of (sv_ovf s) q dict n x -> q_expressions q <> [] ->
  exists rs, answered x rs /\ (forall rs', answered x rs' -> rs' = rs) /\ exists l m, rs = l ++ [RComplete m] /\ Forall (fun r => forall m, r <> RComplete m) l.
Proof.
  intros H1 H2 H3 H4 H5. pose proof (question_sorted _ _ _ _ _ _ H1 H2 H3 H4) as Hs. assert (Hc : compiled_all (q_expressions q) (qu_exprs x)) by (apply (mapM_compiled (sv_ovf s)); [exact H5|apply H4]).
  exact (proj2 (C29_evaluation_terminates _ _ _ (qu_length x) (qu_limit x) Hc Hs)).
Qed.
