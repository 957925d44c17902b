(** Consequences for runs of a query. *)
From Verif Require Export ConvergeProofs.
From Coq Require Import Permutation Sorted.

Lemma iterate_mono fuel fuel' : fuel <= fuel' -> forall k ev x, iterate fuel k ev = Ok x -> iterate fuel' k ev = Ok x.
Proof.
  intros Hf k. induction k as [|k IH]; intros ev x H.
  - cbn in *. destruct (q_phase ev); exact H.
  - cbn [iterate] in *. destruct (q_phase ev); [| |exact H].
    + destruct (next_within_deadline fuel None ev) as [[[ev1 r] d1]| | |] eqn:E; cbn [bind] in H; try discriminate. rewrite (next_mono _ _ _ _ _ Hf E). cbn [bind].
      destruct (iterate fuel k ev1) as [[ev2 rs]| | |] eqn:E2; cbn [bind] in H; try discriminate. rewrite (IH _ _ E2). exact H.
    + destruct (next_within_deadline fuel None ev) as [[[ev1 r] d1]| | |] eqn:E; cbn [bind] in H; try discriminate. rewrite (next_mono _ _ _ _ _ Hf E). cbn [bind].
      destruct (iterate fuel k ev1) as [[ev2 rs]| | |] eqn:E2; cbn [bind] in H; try discriminate. rewrite (IH _ _ E2). exact H.
Qed.

Section runs.
Variables (exs : list expression) (wl : list word) (dl F : nat) (full : list response).
Hypothesis Hne : exs <> [].
Hypothesis HR : all_runs exs wl dl F full.

Lemma run_iff rl rs : query_run exs wl dl rl rs <-> rs = limited rl 0 full.
Proof.
  split.
  - intros (fuel & k & ev & ev' & Hfr & E & Hq). apply (iterate_mono fuel (Nat.max fuel F)) in E; [|lia].
    destruct (HR rl ev (Nat.max fuel F) Hfr) as [_ H]; [lia|]. destruct (H k) as (ev2 & E2 & Hd). rewrite E in E2. injection E2 as -> ->.
    apply firstn_all2. apply Hd. exact Hq.
  - intros ->. exists F, (length (limited rl 0 full)), (start_of exs wl dl rl). assert (Hfr : fresh exs wl dl rl (start_of exs wl dl rl)) by (apply fresh_start; auto).
    destruct (HR rl _ F Hfr) as [_ H]; [lia|]. destruct (H (length (limited rl 0 full))) as (ev2 & E2 & Hd). rewrite firstn_all in E2. exists ev2. split; [exact Hfr|]. split; [exact E2|].
    apply Hd. apply le_n.
Qed.
Lemma calls_iff rl ev fuel ds ev' rs : fresh exs wl dl rl ev -> calls fuel ds ev = Ok (ev', rs) -> length rs = length ds /\
  filter no_timeout rs = firstn (length ds - timeouts rs) (limited rl 0 full ++ repeat (RComplete CalledRepeatedly) (length ds)) /\
  Forall2 (fun d r => d = None -> r <> RTimeout) ds rs.
Proof.
  intros Hfr E. apply (calls_mono fuel (Nat.max fuel F)) in E; [|lia]. destruct (HR rl ev (Nat.max fuel F) Hfr) as [H _]; [lia|].
  destruct (H ds) as (ev2 & rs2 & E1 & E2). rewrite E in E1. injection E1 as <- <-. exact E2.
Qed.
End runs.

(** ** Lists of responses *)
Lemma matches_app a b : reported (a ++ b) = reported a ++ reported b.
Proof. apply flat_map_app. Qed.
Lemma matches_map l : reported (map RMatch l) = l.
Proof. unfold reported. induction l as [|p l IH]; [reflexivity|]. cbn. f_equal. exact IH. Qed.
Lemma matches_words acc wl : reported (word_matches acc wl) = map (fun w => [w]) (singles acc wl).
Proof. unfold reported, word_matches. induction (singles acc wl) as [|w l IH]; [reflexivity|]. cbn. f_equal. exact IH. Qed.
Lemma matches_timeouts rs : reported (filter no_timeout rs) = reported rs.
Proof. unfold reported. induction rs as [|r rs IH]; [reflexivity|]. destruct r; cbn; rewrite ?IH; auto. Qed.
Lemma matches_repeat n : reported (repeat (RComplete CalledRepeatedly) n) = [].
Proof. induction n as [|n IH]; [reflexivity|]. exact IH. Qed.
Lemma matches_firstn n l : exists k, reported (firstn n l) = firstn k (reported l).
Proof.
  revert n. induction l as [|r l IH]; intros [|n]; try (exists 0; reflexivity). destruct (IH n) as (k & E). cbn [firstn]. unfold reported in *. cbn [flat_map].
  destruct r; cbn [app]; try (exists k; exact E). exists (S k). cbn [firstn]. f_equal. exact E.
Qed.
Lemma limited_matches k l : forall n, reported (limited (Some k) n l) = firstn (k - n) (reported l).
Proof.
  induction l as [|r l IH]; intros n; [cbn; destruct (k - n); reflexivity|]. cbn [limited reached]. destruct (Nat.leb_spec k n).
  - replace (k - n) with 0 by lia. reflexivity.
  - unfold reported in *. cbn [flat_map]. rewrite IH. destruct r; cbn [is_match app]; rewrite ?Nat.add_0_r; try reflexivity.
    replace (k - n) with (S (k - (n + 1))) by lia. reflexivity.
Qed.
Lemma limited_below k l : forall n, n + length (reported l) < k -> limited (Some k) n l = l.
Proof.
  induction l as [|r l IH]; intros n H; [reflexivity|]. cbn [limited reached]. unfold reported in H. cbn [flat_map] in H. rewrite app_length in H. fold (reported l) in H.
  destruct (Nat.leb_spec k n); [lia|]. f_equal. apply IH. destruct r; cbn [is_match length] in *; lia.
Qed.
Lemma limited_reached k l : forall n, n <= k -> k <= n + length (reported l) -> (exists m l0, l = l0 ++ [RComplete m] /\ reported l0 = reported l) ->
  exists l1 l2, l = l1 ++ l2 /\ length (reported l1) = k - n /\ limited (Some k) n l = l1 ++ [RComplete (FoundStopping k)].
Proof.
  induction l as [|r l IH]; intros n Hn Hk (m & l0 & El & Em); [destruct l0; discriminate|]. cbn [limited reached]. destruct (Nat.leb_spec k n).
  - exists [], (r :: l). cbn. split; [reflexivity|]. split; [lia|]. do 3 f_equal. lia.
  - unfold reported in Hk. cbn [flat_map] in Hk. rewrite app_length in Hk. fold (reported l) in Hk.
    assert (Hl : exists m' l0', l = l0' ++ [RComplete m'] /\ reported l0' = reported l).
    { destruct l0 as [|r0 l0]; cbn in El; injection El as -> ->; [cbn in Hk; lia|]. exists m, l0. split; [reflexivity|]. rewrite matches_app. cbn. rewrite app_nil_r. reflexivity. }
    destruct (IH (n + is_match r)) as (l1 & l2 & E1 & E2 & E3); [destruct r; cbn; lia|destruct r; cbn [is_match length] in *; lia|exact Hl|].
    exists (r :: l1), l2. split; [cbn; f_equal; exact E1|]. split; [|cbn; f_equal; exact E3]. unfold reported in *. cbn [flat_map]. rewrite app_length, E2. destruct r; cbn [is_match length]; lia.
Qed.

(** ** The answers *)
Lemma answers_complete acc wl dl full : answers acc wl dl full -> exists l m, full = l ++ [RComplete m] /\ reported l = reported full /\ Forall (fun r => forall m, r <> RComplete m) l.
Proof.
  assert (Hw : Forall (fun r => forall m, r <> RComplete m) (word_matches acc wl)). { apply Forall_forall. intros r Hr m E. apply in_map_iff in Hr. destruct Hr as (w & <- & _). discriminate. }
  intros [H|H1 H2|out lost H1 H2 H3].
  - eexists _, _. split; [reflexivity|]. rewrite matches_app. cbn. rewrite app_nil_r. auto.
  - eexists _, _. split; [reflexivity|]. rewrite matches_app. cbn. rewrite app_nil_r. auto.
  - eexists (_ ++ RLogs false :: map RMatch out), _. split; [rewrite <- app_assoc; reflexivity|]. split.
    + rewrite !matches_app. f_equal. change (RLogs false :: ?l) with ([RLogs false] ++ l). rewrite !matches_app. cbn. rewrite app_nil_r. reflexivity.
    + apply Forall_app. split; [exact Hw|]. constructor; [discriminate|]. apply Forall_forall. intros r Hr m E. apply in_map_iff in Hr. destruct Hr as (w & <- & _). discriminate.
Qed.
Lemma singles_tuples acc wl : map (fun w => [w]) (singles acc wl) = filter acc (tuples wl 1).
Proof.
  unfold singles. cbn [tuples]. induction wl as [|w wl IH]; [reflexivity|]. cbn [filter flat_map map app]. destruct (acc [w]); cbn [map]; rewrite IH; reflexivity.
Qed.
Lemma all_phrases_split acc wl dl : all_phrases acc wl dl = map (fun w => [w]) (singles acc wl) ++ phrases_of acc wl dl.
Proof.
  unfold all_phrases, phrases_of. rewrite singles_tuples. replace (Nat.max 1 dl) with (S (dl - 1)) by lia. cbn [seq flat_map]. rewrite filter_app. reflexivity.
Qed.
(** Every stream of answers, in one form. *)
Lemma answers_order acc wl dl full : answers acc wl dl full ->
  exists out lost, reported full = map (fun w => [w]) (singles acc wl) ++ out /\ phrase_order acc wl dl out lost /\
    (forall p, lost = Some p -> exists w d, In w wl /\ p = repeat w d).
Proof.
  assert (Hnil : phrases_of acc wl dl = [] -> phrase_order acc wl dl [] None).
  { intros E. exists [], []. split; [intros w []|]. split; [constructor|]. split; [constructor|]. split; [reflexivity|]. cbn. rewrite E. constructor. }
  intros [H|H1 H2|out lost H1 H2 H3].
  - exists [], None. rewrite matches_app, matches_words. split; [reflexivity|]. split; [|discriminate]. apply Hnil. unfold phrases_of. replace (dl - 1) with 0 by lia. reflexivity.
  - exists [], None. rewrite matches_app, matches_words. split; [reflexivity|]. split; [|discriminate]. apply Hnil. exact H2.
  - exists out, lost. rewrite matches_app, matches_words. split; [|auto]. f_equal. change (RLogs false :: ?l) with ([RLogs false] ++ l). rewrite !matches_app, matches_map. cbn. rewrite app_nil_r. reflexivity.
Qed.

Lemma in_all_phrases acc wl dl p : In p (all_phrases acc wl dl) <-> acc p = true /\ 1 <= length p <= Nat.max 1 dl /\ Forall (fun w => In w wl) p.
Proof.
  unfold all_phrases. rewrite filter_In, in_flat_map. split.
  - intros [(d & Hd & Hp) Ha]. apply in_seq in Hd. apply in_tuples in Hp. split; [exact Ha|]. split; [lia|apply Hp].
  - intros (Ha & Hl & Hw). split; [|exact Ha]. exists (length p). split; [apply in_seq; lia|]. apply in_tuples. auto.
Qed.

(** Positions. *)
Lemma flat_map_map_in {X Y Z} (f : Y -> list Z) (g : X -> Y) l : flat_map f (map g l) = flat_map (fun x => f (g x)) l.
Proof. induction l as [|x l IH]; [reflexivity|]. cbn. rewrite IH. reflexivity. Qed.
Lemma tuples_map {X Y} (g : X -> Y) l k : tuples (map g l) k = map (map g) (tuples l k).
Proof.
  induction k as [|k IH]; [reflexivity|]. cbn [tuples]. rewrite IH, flat_map_map_in. generalize (tuples l k) as T. clear IH. intros T.
  induction l as [|x l IHl]; [reflexivity|]. cbn [flat_map]. rewrite map_app, IHl. f_equal. rewrite !map_map. reflexivity.
Qed.
Lemma NoDup_app' {X} (a b : list X) : NoDup a -> NoDup b -> (forall x, In x a -> ~ In x b) -> NoDup (a ++ b).
Proof.
  induction 1 as [|x a Hx Ha IH]; intros Hb Hd; [exact Hb|]. cbn. constructor.
  - rewrite in_app_iff. intros [H|H]; [contradiction|]. apply (Hd x); [left; reflexivity|exact H].
  - apply IH; [exact Hb|]. intros y Hy. apply Hd. right. exact Hy.
Qed.
Lemma NoDup_cons_map {X} (x : X) T : NoDup T -> NoDup (map (cons x) T).
Proof.
  induction 1 as [|t T Ht HT IH]; [constructor|]. cbn. constructor; [|exact IH]. intros H. apply in_map_iff in H. destruct H as (s & E & Hs). injection E as ->. contradiction.
Qed.
Lemma tuples_nodup {X} (l : list X) k : NoDup l -> NoDup (tuples l k).
Proof.
  intros Hl. induction k as [|k IH]; [repeat constructor; intros []|]. cbn [tuples]. generalize (tuples l k) IH. intros T HT. clear IH.
  induction Hl as [|x l Hx Hl IHl]; [constructor|]. cbn [flat_map]. apply NoDup_app'; [apply NoDup_cons_map; exact HT|exact IHl|].
  intros p Hp Hq. apply in_map_iff in Hp. destruct Hp as (s & <- & Hs). apply in_flat_map in Hq. destruct Hq as (y & Hy & Hq). apply in_map_iff in Hq. destruct Hq as (s' & E & _).
  injection E as -> ->. contradiction.
Qed.
Lemma tuples_seq_nodup {X} (l : list X) ks : NoDup l -> NoDup ks -> NoDup (flat_map (tuples l) ks).
Proof.
  intros Hl. induction 1 as [|k ks Hk _ IH]; [constructor|]. cbn [flat_map]. apply NoDup_app'; [apply tuples_nodup; exact Hl|exact IH|].
  intros p Hp Hq. apply in_tuples in Hp. apply in_flat_map in Hq. destruct Hq as (k' & Hk' & Hq). apply in_tuples in Hq. destruct Hp as [<- _], Hq as [Hq _]. congruence.
Qed.
Lemma seq_nth {X} (l : list X) d : map (fun i => nth i l d) (seq 0 (length l)) = l.
Proof.
  induction l as [|x l IH]; [reflexivity|]. cbn [length seq map nth]. f_equal. rewrite <- seq_shift, map_map. exact IH.
Qed.
Lemma perm_map_inv {X Y} (g : X -> Y) l' : forall l, Permutation (map g l) l' -> exists m, Permutation l m /\ l' = map g m.
Proof. intros l H. apply Permutation_sym in H. destruct (Permutation_map_inv g l H) as (m & -> & Hm). exists m. split; [exact Hm|reflexivity]. Qed.
Lemma filter_map_comm {X Y} (g : X -> Y) f l : filter f (map g l) = map g (filter (fun x => f (g x)) l).
Proof. induction l as [|x l IH]; [reflexivity|]. cbn. destruct (f (g x)); cbn; rewrite IH; reflexivity. Qed.

(** Every result of a permutation of all phrases stands for one choice of positions. *)
Lemma positions acc wl dl l : Permutation l (all_phrases acc wl dl) -> exists P, NoDup P /\ Forall2 (phrase_at wl) P l.
Proof.
  intros H. set (w0 := hd (mkWord 0 [] [] 0%N) wl). set (g := fun i => nth i wl w0).
  assert (Hw : wl = map g (seq 0 (length wl))) by (symmetry; apply seq_nth).
  assert (E : all_phrases acc wl dl = map (map g) (filter (fun ps => acc (map g ps)) (flat_map (tuples (seq 0 (length wl))) (seq 1 (Nat.max 1 dl))))).
  { unfold all_phrases. rewrite <- filter_map_comm. f_equal. rewrite Hw at 1. generalize (seq 1 (Nat.max 1 dl)) as ks. induction ks as [|k ks IH]; [reflexivity|].
    cbn [flat_map]. rewrite map_app, tuples_map, IH. reflexivity. }
  rewrite E in H. apply Permutation_sym in H. apply perm_map_inv in H. destruct H as (P & HP & ->). exists P.
  assert (Hnd : NoDup (filter (fun ps => acc (map g ps)) (flat_map (tuples (seq 0 (length wl))) (seq 1 (Nat.max 1 dl))))) by (apply NoDup_filter, tuples_seq_nodup; apply seq_NoDup).
  split; [eapply Permutation_NoDup; eauto|].
  assert (Hin : forall ps, In ps P -> Forall (fun i => i < length wl) ps).
  { intros ps Hps. apply (Permutation_in _ (Permutation_sym HP)) in Hps. apply filter_In in Hps. destruct Hps as [Hps _]. apply in_flat_map in Hps. destruct Hps as (k & _ & Hps).
    apply in_tuples in Hps. eapply Forall_impl; [|apply Hps]. intros i Hi. apply in_seq in Hi. lia. }
  clear -Hin. induction P as [|ps P IH]; [constructor|]. cbn [map]. constructor; [|apply IH; intros; apply Hin; right; assumption].
  specialize (Hin ps (or_introl eq_refl)). induction Hin as [|i ps Hi _ IHp]; [constructor|]. cbn [map]. constructor; [|exact IHp]. unfold g. apply nth_error_nth'. exact Hi.
Qed.
