(** The whole evaluation of a query. *)
From Verif Require Export EvalProofs.
From Coq Require Import Permutation Sorted.

Lemma repeat_words {X} (w : X) d : d <> 0 -> In w (repeat w d).
Proof. destruct d; [congruence|left; reflexivity]. Qed.

Lemma phase_fits_queue A D tr dl n ph : (forall d, In d D -> 2 <= d <= dl) -> length n = S (max_list (map depth (sized_queue A (prod D tr)))) ->
  In ph (sized_queue A (prod D tr)) -> phase_fits A (@length layer n) ph.
Proof.
  intros HD Hn Hin. split.
  - split; [|rewrite Hn; apply le_n_S, max_list_ge, in_map; exact Hin].
    apply sized_queue_in in Hin. destruct Hin as (ph0 & H0 & -> & _). apply PassProofs.in_prod in H0. cbn. specialize (HD _ (proj1 H0)). lia.
  - apply sized_queue_in in Hin. destruct Hin as (ph0 & H0 & -> & Hc). cbn [resize tranche]. apply count_in in Hc. destruct Hc as (w & Hw & Ht).
    intros E. assert (Hx : In w (words_of A (tranche ph0))) by (apply filter_In; split; [exact Hw|apply Nat.leb_le; lia]). rewrite E in Hx. destruct Hx.
Qed.

Lemma started_runs exs wl dl p acc : decides acc exs -> sorted_words wl -> started exs wl dl p ->
  p_words p <> [] /\ exists k out res, runs k p out res /\ phrase_order acc wl dl out res /\
    (forall ws, res = Some ws -> exists w d, In w wl /\ ws = repeat w d).
Proof.
  intros Hacc Hs (K & D & tr & PT & w0 & Ls & H). cbv zeta in H.
  set (A := filter K wl) in *. destruct H as (Hw0 & Hq & HD & Htr & Hb & Hw & Hc & Hr & -> & Hl0 & Hrs & Hlen).
  split; [cbn; intros E; rewrite E in Hw0; discriminate|].
  assert (HA : sorted_words A) by (apply sorted_filter; exact Hs).
  destruct (queue_spec A PT (ready_PT A _ exs PT Hr) HA (map total_size (sized_queue A (prod D tr))) _ (sized_queue A (prod D tr)) Ls w0 (le_n _) Hq) as (out & s1 & res & E1 & E2 & E3 & E4); auto.
  { apply Forall_forall. intros ph Hph. eapply phase_fits_queue; eauto. }
  destruct (exec_runs _ _ _ _ E1 E2) as (k & Hk). exists k, out, res. split; [exact Hk|]. split.
  - exists A, (sized_queue A (prod D tr)). split; [intros w Hin; apply filter_In in Hin; apply Hin|]. split; [apply sized_queue_sorted; assumption|].
    assert (Hout : out ++ opt_list res = flat_map (phase_results acc wl) (sized_queue A (prod D tr))).
    { change (opt_list res) with (olist res). rewrite E3. apply flat_map_ext_in. intros ph Hph. apply (phase_out_results exs wl dl acc Hacc K D tr PT ph Hb Hc Hr).
      - apply sized_queue_in in Hph. destruct Hph as (ph0 & H0 & -> & _). apply PassProofs.in_prod in H0. apply H0.
      - apply sized_queue_in in Hph. destruct Hph as (ph0 & H0 & -> & _). apply PassProofs.in_prod in H0. apply H0. }
    split; [|split; [exact Hout|]].
    + apply Forall_forall. intros ph Hph. apply sized_queue_in in Hph. destruct Hph as (ph0 & H0 & -> & Hcn). apply PassProofs.in_prod in H0. split; [apply Hb; apply H0|].
      unfold resize, size_of, search_size. cbn [total_size tranche depth]. destruct (Nat.eqb_spec (count_of A (tranche ph0)) 0); [congruence|]. reflexivity.
    + rewrite Hout. apply (results_perm exs wl dl acc Hacc K D tr HD Htr Hb Hw Hc).
  - intros ws Ews. destruct (E4 ws Ews) as (w & d & Hin & ->). exists w, d. split; [|reflexivity]. apply filter_In in Hin. apply Hin.
Qed.

Lemma begin_det dl ml ex exs wl m rest m2 rest2 : Forall good (ex :: exs) -> fits_all ml wl ->
  ran false ex ml wl m -> chain false ml (alive m) exs rest -> ran false ex ml wl m2 -> chain false ml (alive m2) exs rest2 ->
  begin_phrases dl (m :: rest) = begin_phrases dl (m2 :: rest2).
Proof.
  intros Hg Hf Hr Hc Hr2 Hc2. unfold ran in Hr, Hr2. assert (m2 = m) by congruence. subst m2.
  pose proof (Forall_inv Hg) as Hgx. pose proof (Forall_inv_tail Hg) as Hgs. pose proof (fits_alive _ _ _ _ _ Hgx Hf Hr) as Hfa.
  destruct (feed_rest_spec ml exs Hgs (alive m) [] rest) as (r1 & E1 & F1); [rewrite app_nil_r; exact Hfa|exact Hc|].
  destruct (feed_rest_spec ml exs Hgs (alive m) [] rest2) as (r2 & E2 & F2); [rewrite app_nil_r; exact Hfa|exact Hc2|].
  rewrite app_nil_r in *. pose proof (full_det _ _ _ _ _ _ F1 F2) as ->. unfold begin_phrases. rewrite E1, E2. reflexivity.
Qed.

Lemma no_phrases_nil exs wl dl acc : decides acc exs -> no_phrase_in wl dl exs -> phrases_of acc wl dl = [].
Proof.
  intros Hacc H. apply filter_none. intros p Hp. apply in_flat_map in Hp. destruct Hp as (d & Hd & Hp). apply in_seq in Hd. apply in_tuples in Hp. destruct Hp as [L1 L2].
  destruct (acc p) eqn:E; [|reflexivity]. exfalso. apply Hacc in E. apply (H p L2); [lia|exact E].
Qed.

Lemma fits_max wl : fits_all (1 + max_list (map (fun w => length (w_chars w)) wl)) wl.
Proof.
  apply Forall_forall. intros w Hw. assert (H : length (w_chars w) <= max_list (map (fun w => length (w_chars w)) wl)) by (apply max_list_ge, in_map_iff; eauto). lia.
Qed.

Lemma all_hit_acc ex exs acc w : Forall good (ex :: exs) -> decides acc (ex :: exs) -> all_hit (ex :: exs) w = acc [w].
Proof.
  intros Hg Hacc. assert (H : all_hit (ex :: exs) w = true <-> acc [w] = true).
  { rewrite (Hacc [w]). unfold all_hit, acc_all, hit. rewrite forallb_forall, Forall_forall. unfold phrase_text. cbn [map concat]. rewrite app_nil_r.
    rewrite Forall_forall in Hg. split; intros H x Hx; specialize (H x Hx); apply textb_spec in H; auto. }
  destruct (all_hit (ex :: exs) w), (acc [w]); auto; [symmetry; apply H; reflexivity|apply H; reflexivity].
Qed.

(** A stuck evaluation is one that gave up. *)
Lemma stuck_calls ex exs wl dl ml fuel : Forall good (ex :: exs) -> fits_all ml wl -> forall full ev,
  ev_ok ex exs wl dl ml 0 true None ev full -> exists ev', calls fuel (repeat None (length full)) ev = Ok (ev', full).
Proof.
  intros Hg Hf full. induction full as [|r full IH]; intros ev Hev; [exists ev; reflexivity|]. cbn [length repeat calls].
  destruct (call_spec ex exs wl dl ml 0 true Hg Hf fuel None None ev (r :: full)) as [(ev1 & d' & E & H1 & Hn & Hd & _)|[(ev1 & d' & E0 & E & H1 & Hn)|[(ev1 & d' & Hne & Er & E & H1 & Hn)|(ev1 & d' & r' & full' & E0 & Er & E & H1 & Hn)]]]; auto; try congruence; try lia; try discriminate.
  injection E0 as <- <-. rewrite E. cbn [bind]. destruct (IH ev1 H1) as (ev' & E2). rewrite E2. cbn [bind]. exists ev'. reflexivity.
Qed.

Lemma fresh_owes ex exs wl dl acc F st rl0 tail : let ml := 1 + max_list (map (fun w => length (w_chars w)) wl) in
  Forall good (ex :: exs) -> decides acc (ex :: exs) -> owes_after ex exs wl dl ml F st (length (singles acc wl)) tail ->
  ev_ok ex exs wl dl ml F st rl0 (mkEval (QWord (map (fun e => wm_new e ml) (ex :: exs)) wl) dl rl0 0) (word_matches acc wl ++ tail).
Proof.
  intros ml Hg Hacc Ht. assert (Hsing : filter (all_hit (ex :: exs)) wl = singles acc wl) by (apply filter_ext; intros w; apply all_hit_acc; assumption).
  split; [reflexivity|]. split; [reflexivity|]. cbn [q_phase owes results_count]. split; [reflexivity|].
  exists (wm_new ex ml), (map (fun e => wm_new e ml) exs), [], wl, tail. split; [reflexivity|]. split; [reflexivity|]. split; [reflexivity|].
  split; [apply chain_new; exact (Forall_inv_tail Hg)|]. rewrite Hsing. split; [reflexivity|exact Ht].
Qed.

Definition start_of (exs : list expression) (wl : list word) (dl : nat) (rl : option nat) : evaluator :=
  mkEval (QWord (map (fun e => wm_new e (1 + max_list (map (fun w => length (w_chars w)) wl))) exs) wl) dl rl 0.
Lemma fresh_start exs wl dl rl ev : fresh exs wl dl rl ev <-> exs <> [] /\ ev = start_of exs wl dl rl.
Proof.
  unfold fresh, query_new, start_of. destruct exs as [|ex exs]; [split; [discriminate|intros [[] _]; reflexivity]|].
  split; [intros [= <-]; split; [discriminate|reflexivity]|intros [_ ->]; reflexivity].
Qed.

Lemma stream_core ex exs wl dl acc : let ml := 1 + max_list (map (fun w => length (w_chars w)) wl) in
  Forall good (ex :: exs) -> sorted_words wl -> decides acc (ex :: exs) ->
  (exists F full, answers acc wl dl full /\ forall rl, ev_ok ex exs wl dl ml F false rl (start_of (ex :: exs) wl dl rl) full) \/
  (gives_up (ex :: exs) wl dl /\ exists m rest p, ran false ex ml wl m /\ chain false ml (alive m) exs rest /\ begin_phrases dl (m :: rest) = Ok (QPhrase p, RLogs true) /\ 2 <= dl /\ started_any wl dl p).
Proof.
  intros ml Hg Hs Hacc. assert (Hf : fits_all ml wl) by apply fits_max.
  pose proof (Forall_inv Hg) as Hgx. pose proof (Forall_inv_tail Hg) as Hgs.
  assert (Hev : forall F st rl0 tail, owes_after ex exs wl dl ml F st (length (singles acc wl)) tail ->
    ev_ok ex exs wl dl ml F st rl0 (start_of (ex :: exs) wl dl rl0) (word_matches acc wl ++ tail)).
  { intros F st rl0 tail Ht. apply fresh_owes; assumption. }
  destruct (Nat.leb_spec dl 1) as [Hd|Hd].
  - left. exists 0, (word_matches acc wl ++ [RComplete (AllSingle (length (singles acc wl)))]).
    split; [constructor; exact Hd|]. intros rl. apply Hev. unfold owes_after. rewrite (proj2 (Nat.leb_le dl 1) Hd). reflexivity.
  - assert (Hsg : (dl <=? 1) = false) by (apply Nat.leb_gt; lia).
    destruct (ran_ok false ex ml wl Hgx Hf) as (m & Hr).
    assert (Hc : exists rest, chain false ml (alive m) exs rest) by (exists (map (fun e => wm_new e ml) exs); apply chain_new; exact Hgs). destruct Hc as (rest & Hc).
    assert (HB : forall ph r, begin_phrases dl (m :: rest) = Ok (ph, r) -> forall m2 rest2, ran false ex ml wl m2 -> chain false ml (alive m2) exs rest2 -> begin_phrases dl (m2 :: rest2) = Ok (ph, r)).
    { intros ph r E m2 rest2 Hr2 Hc2. rewrite <- E. symmetry. eapply begin_det; eauto. }
    destruct (begin_spec ex exs ml wl dl m rest Hg Hf Hs Hr Hc) as [[E Hn]|[(p & E & Hany)|(p & E & Hst)]].
    + left. exists 0, (word_matches acc wl ++ [RComplete NoPhrases]). split; [constructor 2; [lia|eapply no_phrases_nil; eauto]|].
      intros rl. apply Hev. unfold owes_after. rewrite Hsg. exists QDone, (RComplete NoPhrases), []. split; [reflexivity|]. split; [reflexivity|].
      split; [discriminate|]. split; [reflexivity|]. exact (HB _ _ E).
    + right. split; [|exists m, rest, p; split; [exact Hr|]; split; [exact Hc|]; split; [exact E|]; split; [lia|exact Hany]].
      assert (Hs2 : ev_ok ex exs wl dl ml 0 true None (start_of (ex :: exs) wl dl None) (word_matches acc wl ++ [RLogs true])).
      { apply Hev. unfold owes_after. rewrite Hsg. exists (QPhrase p), (RLogs true), []. split; [reflexivity|]. split; [reflexivity|].
        split; [discriminate|]. split; [reflexivity|]. exact (HB _ _ E). }
      destruct (stuck_calls ex exs wl dl ml 0 Hg Hf _ _ Hs2) as (ev' & E2).
      eexists 0, _, _, ev', _. split; [apply fresh_start; split; [discriminate|reflexivity]|]. split; [exact E2|]. apply in_app_iff. right. left. reflexivity.
    + left. destruct (started_runs (ex :: exs) wl dl p acc Hacc Hs Hst) as (Hpw & k & out & res & Hrun & Hord & Hlost).
      exists k, (word_matches acc wl ++ RLogs false :: map RMatch out ++ [RComplete (AllPhrases (length (singles acc wl) + length (out ++ opt_list res)) dl)]).
      split; [constructor 3; [lia|exact Hord|exact Hlost]|].
      intros rl. apply Hev. unfold owes_after. rewrite Hsg. eexists (QPhrase p), (RLogs false), _. split; [reflexivity|]. split; [reflexivity|].
      split; [discriminate|]. split; [|exact (HB _ _ E)]. split; [exact Hpw|]. exists k, out, res. split; [apply le_n|]. split; [exact Hrun|reflexivity].
Qed.

(** ** All runs *)
Definition all_runs (exs : list expression) (wl : list word) (dl F : nat) (full : list response) : Prop :=
  forall rl ev fuel, fresh exs wl dl rl ev -> F <= fuel ->
    (forall ds, exists ev' rs, calls fuel ds ev = Ok (ev', rs) /\ length rs = length ds /\
      filter no_timeout rs = firstn (length ds - timeouts rs) (limited rl 0 full ++ repeat (RComplete CalledRepeatedly) (length ds)) /\
      Forall2 (fun d r => d = None -> r <> RTimeout) ds rs) /\
    (forall k, exists ev', iterate fuel k ev = Ok (ev', firstn k (limited rl 0 full)) /\ (length (limited rl 0 full) <= k <-> q_phase ev' = QDone)).
Lemma ok_all_runs ex exs wl dl F full : let ml := 1 + max_list (map (fun w => length (w_chars w)) wl) in Forall good (ex :: exs) ->
  (forall rl, ev_ok ex exs wl dl ml F false rl (start_of (ex :: exs) wl dl rl) full) -> all_runs (ex :: exs) wl dl F full.
Proof.
  intros ml Hg Hev rl ev fuel Hfr HF. apply fresh_start in Hfr. destruct Hfr as [_ ->]. assert (Hf : fits_all ml wl) by apply fits_max. split.
  - intros ds. exact (calls_spec ex exs wl dl ml F false Hg Hf eq_refl fuel rl HF ds _ full (Hev rl)).
  - intros k. exact (iterate_spec ex exs wl dl ml F false Hg Hf eq_refl fuel rl HF k _ full (Hev rl)).
Qed.
Lemma eval_spec exs wl dl acc : exs <> [] -> Forall good exs -> sorted_words wl -> decides acc exs -> ~ gives_up exs wl dl ->
  exists full F, answers acc wl dl full /\ all_runs exs wl dl F full.
Proof.
  intros Hne Hg Hs Hacc Hgu. destruct exs as [|ex exs]; [congruence|]. destruct (stream_core ex exs wl dl acc Hg Hs Hacc) as [(F & full & Ha & Hev)|[H _]]; [|contradiction].
  exists full, F. split; [exact Ha|]. apply ok_all_runs; assumption.
Qed.
(** With a limit of one word there is no phrase search. *)
Lemma single_eval exs wl dl acc : exs <> [] -> Forall good exs -> dl <= 1 -> decides acc exs ->
  all_runs exs wl dl 0 (word_matches acc wl ++ [RComplete (AllSingle (length (singles acc wl)))]).
Proof.
  intros Hne Hg Hd Hacc. destruct exs as [|ex exs]; [congruence|]. apply ok_all_runs; [exact Hg|]. intros rl.
  apply fresh_owes; auto. unfold owes_after. rewrite (proj2 (Nat.leb_le dl 1) Hd). reflexivity.
Qed.
