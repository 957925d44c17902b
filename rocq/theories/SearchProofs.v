(** From words to phrases (query.rs:269-489). *)
From Verif Require Export SizeProofs.
From Coq Require Import Permutation Sorted.

(** ** Tranches *)
Lemma sorted_strong A : sorted_words A -> StronglySorted le (map w_tranche A).
Proof.
  induction A as [|a A IH]; intros H; [constructor|]. cbn [map]. constructor; [apply IH; eapply sorted_tail; eauto|].
  apply Forall_forall. intros t Ht. apply in_map_iff in Ht. destruct Ht as (w & <- & Hw). apply In_nth_error in Hw. destruct Hw as (j & Hj).
  apply (H 0 (S j) a w); [lia|reflexivity|exact Hj].
Qed.
Lemma sort_sorted l : StronglySorted le l -> sort_nat l = l.
Proof.
  induction 1 as [|a l Hs IH Hf]; [reflexivity|]. cbn [sort_nat fold_right]. fold (sort_nat l). rewrite IH.
  destruct l as [|b l]; [reflexivity|]. cbn [insert_nat]. inversion Hf; subst. rewrite (proj2 (Nat.leb_le _ _)) by assumption. reflexivity.
Qed.
Lemma dedup_strict l : StronglySorted le l -> StronglySorted lt (dedup_nat l).
Proof.
  induction 1 as [|a l Hs IH Hf]; [constructor|]. destruct l as [|b l]; [repeat constructor|]. rewrite dedup_cons.
  destruct (Nat.eqb_spec a b) as [->|Hne]; [exact IH|]. constructor; [exact IH|]. apply Forall_forall. intros x Hx. apply (proj1 (in_dedup_nat x (b :: l))) in Hx.
  inversion Hs as [|? ? Hs' Hb]; subst. inversion Hf; subst. destruct Hx as [<-|Hx]; [lia|]. rewrite Forall_forall in Hb. specialize (Hb x Hx). lia.
Qed.
Lemma strict_dedup l : StronglySorted lt l -> dedup_nat l = l.
Proof.
  induction 1 as [|a l Hs IH Hf]; [reflexivity|]. destruct l as [|b l]; [reflexivity|]. rewrite dedup_cons, IH. inversion Hf; subst.
  destruct (Nat.eqb_spec a b); [lia|reflexivity].
Qed.
Lemma strict_le l : StronglySorted lt l -> StronglySorted le l.
Proof. induction 1 as [|a l Hs IH Hf]; constructor; [exact IH|]. eapply Forall_impl; [|exact Hf]. intros; lia. Qed.
Lemma strict_nodup l : StronglySorted lt l -> NoDup l.
Proof.
  induction 1 as [|a l Hs IH Hf]; constructor; [|exact IH]. intros Hin. rewrite Forall_forall in Hf. specialize (Hf a Hin). lia.
Qed.
Lemma check_tranches_spec A : sorted_words A -> exists tr, check_tranches A = Ok tr /\ StronglySorted lt tr /\ (forall t, In t tr <-> exists w, In w A /\ w_tranche w = t).
Proof.
  intros H. apply sorted_strong in H. pose proof (dedup_strict _ H) as Hd. exists (dedup_nat (map w_tranche A)). split; [|split].
  - unfold check_tranches. rewrite (sort_sorted _ (strict_le _ Hd)), (strict_dedup _ Hd). unfold nats_eqb.
    destruct (list_eq_dec Nat.eq_dec (dedup_nat (map w_tranche A)) (dedup_nat (map w_tranche A))); [reflexivity|congruence].
  - exact Hd.
  - intros t. rewrite in_dedup_nat, in_map_iff. split; intros (w & H1 & H2); eauto.
Qed.
Lemma sorted_filter k A : sorted_words A -> sorted_words (filter k A).
Proof.
  induction A as [|a A IH]; intros H; [exact H|]. pose proof (IH (sorted_tail _ _ H)) as IH'. cbn [filter]. destruct (k a); [|exact IH'].
  intros [|i] [|j] x y Hij Hx Hy; cbn in Hx, Hy.
  - assert (x = y) by congruence. subst; lia.
  - injection Hx as <-. apply nth_error_In in Hy. apply filter_In in Hy. destruct Hy as [Hy _]. apply In_nth_error in Hy. destruct Hy as (n & Hn).
    apply (H 0 (S n) a y); [lia|reflexivity|exact Hn].
  - lia.
  - apply (IH' i j); [lia|exact Hx|exact Hy].
Qed.

Lemma strict_filter f l : StronglySorted lt l -> StronglySorted lt (filter f l).
Proof.
  induction 1 as [|a l Hs IH Hf]; [constructor|]. cbn [filter]. destruct (f a); [|exact IH]. constructor; [exact IH|].
  apply Forall_forall. intros x Hx. apply filter_In in Hx. rewrite Forall_forall in Hf. apply Hf, Hx.
Qed.
Lemma seq_strict n : forall a, StronglySorted lt (seq a n).
Proof.
  induction n as [|n IH]; intros a; [constructor|]. cbn [seq]. constructor; [apply IH|]. apply Forall_forall. intros x Hx. apply in_seq in Hx. lia.
Qed.

(** ** The matchers before the passes *)
Lemma matcher_ok_filter ex md L g k m : matcher_ok ex md (filter g L) k m -> matcher_ok ex md L (fun w => g w && k w) m.
Proof.
  intros (H1 & H2 & H3 & H4 & H5). split; [exact H1|]. split; [exact H2|]. split; [exact H3|]. split; [|exact H5]. rewrite H4. apply filter_andb.
Qed.
Lemma full_mgood ml wl q K : forall exs ms g, Forall good exs -> fits_all ml (filter g wl) -> full false ml (filter g wl) exs ms ->
  (forall w, K w = true -> g w = true /\ forallb (fun ex => live_word ex false w) exs = true) -> Forall2 (mgood wl K q) exs ms.
Proof.
  induction exs as [|ex exs IH]; intros [|m ms] g Hg Hf Hfull HK; cbn [full] in Hfull; try contradiction; [constructor|].
  destruct Hfull as [Hr Hrest]. inversion Hg; subst. constructor.
  - exists (fun w => g w && live_word ex false w), (max_list (map depth q)). split; [|split; [apply le_n|]].
    + apply matcher_ok_filter. apply (ran_matcher_ok ex ml); auto.
    + intros w _ Hw. destruct (HK w Hw) as [G1 G2]. cbn [forallb] in G2. apply andb_true_iff in G2. rewrite G1, (proj1 G2). reflexivity.
  - destruct (ran_facts false ex ml _ m ltac:(assumption) Hf Hr) as (_ & _ & Ha). rewrite Ha, filter_andb in Hrest.
    apply (IH ms (fun w => g w && live_word ex false w)); auto.
    + rewrite <- filter_andb. unfold fits_all in *. rewrite Forall_forall in *. intros w Hw. apply filter_In in Hw. apply Hf, Hw.
    + intros w Hw. destruct (HK w Hw) as [G1 G2]. cbn [forallb] in G2. apply andb_true_iff in G2. rewrite G1, (proj1 G2). split; [reflexivity|apply G2].
Qed.
Lemma accepted_live exs p w : Forall good exs -> acc_all exs p -> In w p -> forallb (fun ex => live_word ex false w) exs = true.
Proof.
  intros Hg Ha Hw. apply forallb_forall. intros ex Hex. unfold acc_all in Ha. rewrite Forall_forall in *.
  unfold live_word. destruct (survives ex false (w_chars w)) eqn:E; [reflexivity|]. exfalso.
  apply in_split in Hw. destruct Hw as (a & b & ->). specialize (Ha ex Hex). unfold phrase_text in Ha. rewrite map_app, concat_app in Ha. cbn [map concat] in Ha.
  eapply dead_word_useless; eauto.
Qed.

(** ** The matchers after the passes *)
Definition ready (A : list word) (md : nat) (ex : expression) (x : phrase_matcher * (word -> table)) : Prop :=
  (0 < fuzz_limit (fst x) /\
   forall wi w, nth_error A wi = Some w -> forall prev nxt, step_by_word_index (fst x) wi prev nxt = Ok (step (fuzz_limit (fst x)) (snd x w) prev nxt)) /\
  meaning ex (fst x) (snd x) md A.
Lemma mgood_ready L K q ex m : mgood L K q ex m -> alive m = filter K L -> nozero m -> filter K L <> [] ->
  exists tbl, ready (filter K L) (max_list (map depth q)) ex (wm_pm m, tbl).
Proof.
  intros (k & md & (H1 & H2 & H3 & H4 & H5) & Hmd & _) Ha Hz Hne. destruct H5 as [H5|(cls & tbl & C1 & C2 & C3 & _)]; [congruence|].
  exists tbl. cbn [ready fst snd]. split; [split|].
  - cbn. lia.
  - intros wi w Hw prev nxt. unfold step_by_word_index, index. cbn [fst snd]. rewrite C1, nth_error_map', Ha, Hw. cbn [option_map bind].
    assert (Hc0 : cls w <> 0).
    { assert (Hz' := Hz ltac:(congruence)). rewrite Forall_forall in Hz'. apply Hz'. rewrite C1. apply in_map. rewrite Ha. eapply nth_error_In; eauto. }
    destruct (Nat.eqb_spec (cls w) 0); [congruence|]. destruct (C2 w) as (c & Hc & HT); [rewrite Ha; eapply nth_error_In; eauto|].
    rewrite Hc. cbn [bind]. rewrite HT. reflexivity.
  - cbn [fst snd]. intros p (P1 & P2 & P3). apply C3. split; [exact P1|]. split; [lia|]. rewrite Ha. exact P3.
Qed.
Lemma all_ready L K q exs ms : Forall2 (mgood L K q) exs ms -> Forall (fun m => alive m = filter K L /\ nozero m) ms -> filter K L <> [] ->
  exists PT, map fst PT = map wm_pm ms /\ Forall2 (ready (filter K L) (max_list (map depth q))) exs PT.
Proof.
  intros H. induction H as [|ex m exs ms H _ IH]; intros Hf Hne.
  - exists []. split; [reflexivity|constructor].
  - inversion Hf as [|? ? [Ha Hz] Hf']; subst. destruct (IH Hf' Hne) as (PT & E & HP). destruct (mgood_ready L K q ex m H Ha Hz Hne) as (tbl & Ht).
    exists ((wm_pm m, tbl) :: PT). cbn [map fst]. rewrite E. split; [reflexivity|constructor; auto].
Qed.
Lemma okp_spec A md exs PT p : Forall2 (ready A md) exs PT -> phrases md A p -> (okp PT p = true <-> acc_all exs p).
Proof.
  intros H Hp. unfold okp, acc_all. induction H as [|ex x exs PT [[Hpos _] Hm] _ IH]; cbn [forallb].
  - split; [constructor|reflexivity].
  - rewrite andb_true_iff, IH. unfold has_success_state, prow. rewrite run_accepts by exact Hpos.
    assert (Hx := Hm p Hp). unfold accepted in Hx. rewrite Hx. split; [intros [G1 G2]; constructor; auto|intros G; inversion G; auto].
Qed.
Lemma ready_PT A md exs PT : Forall2 (ready A md) exs PT -> forall pm tbl, In (pm, tbl) PT -> 0 < fuzz_limit pm /\
  forall wi w, nth_error A wi = Some w -> forall prev nxt, step_by_word_index pm wi prev nxt = Ok (step (fuzz_limit pm) (tbl w) prev nxt).
Proof.
  induction 1 as [|ex x exs PT [H _] _ IH]; intros pm tbl Hin; [destruct Hin|]. destruct Hin as [->|Hin]; [exact H|apply IH; exact Hin].
Qed.

(** A search about to start. *)
Definition started (exs : list expression) (wl : list word) (dl : nat) (p : pstate) : Prop :=
  exists K D tr PT w0 Ls, let A := filter K wl in let q := sized_queue A (prod D tr) in
    nth_error A 0 = Some w0 /\ q <> [] /\ StronglySorted lt D /\ StronglySorted lt tr /\ (forall d, In d D -> 2 <= d <= dl) /\ (forall w, In w A -> In (w_tranche w) tr) /\
    complete_for wl dl exs K (prod D tr) /\ Forall2 (ready A (max_list (map depth (prod D tr)))) exs PT /\
    p = mkPS (map fst PT) A q Ls 0 false (map total_size q) /\
    nth_error Ls 0 = Some (mkLayer 0 (w_tranche w0) (rows PT [])) /\ rowsized PT Ls /\ length Ls = S (max_list (map depth q)).

(** A search about to start, whether or not the optimiser gave up: every matcher can take a step with
    every word, by whatever table. *)
Definition steps_with (n : nat) (pm : phrase_matcher) : Prop :=
  0 < fuzz_limit pm /\ exists tb : nat -> table, forall wi, wi < n -> forall prev nxt, step_by_word_index pm wi prev nxt = Ok (step (fuzz_limit pm) (tb wi) prev nxt).
Definition started_any (wl : list word) (dl : nat) (p : pstate) : Prop :=
  exists K D tr pms w0 Ls, let A := filter K wl in let q := sized_queue A (prod D tr) in
    nth_error A 0 = Some w0 /\ q <> [] /\ StronglySorted lt D /\ StronglySorted lt tr /\ (forall d, In d D -> 2 <= d <= dl) /\
    Forall (steps_with (length A)) pms /\
    p = mkPS pms A q Ls 0 false (map total_size q) /\
    nth_error Ls 0 = Some (mkLayer 0 (w_tranche w0) (map (fun pm => start_row (fuzz_limit pm) (start_states pm)) pms)) /\
    Forall (fun l => length (l_rows l) = length pms) Ls /\ length Ls = S (max_list (map depth q)).
Lemma mgood_steps L K q ex m : mgood L K q ex m -> nozero m -> filter K L <> [] -> steps_with (length (filter K L)) (wm_pm m).
Proof.
  intros (k & md & (H1 & H2 & H3 & H4 & H5) & Hmd & HK) Hz Hne.
  assert (Hle : length (filter K L) <= length (filter k L)).
  { clear - HK. induction L as [|w L IH]; [apply le_n|]. cbn [filter]. assert (IH' := IH (fun w' H => HK w' (or_intror H))). pose proof (HK w (or_introl eq_refl)) as Hw. destruct (K w); [rewrite (Hw eq_refl); cbn; lia|]. destruct (k w); cbn; lia. }
  destruct H5 as [H5|(cls & tbl & C1 & C2 & C3 & _)].
  { rewrite H4 in H5. rewrite H5 in Hle. destruct (filter K L); [congruence|cbn in Hle; lia]. }
  split; [lia|]. exists (fun wi => tbl (nth wi (alive m) (mkWord 0 [] [] 0%N))). intros wi Hwi prev nxt.
  assert (Hlt : wi < length (alive m)) by (rewrite H4; lia). pose proof (nth_error_nth' (alive m) (mkWord 0 [] [] 0%N) Hlt) as Hw. set (w := nth wi (alive m) (mkWord 0 [] [] 0%N)) in *.
  unfold step_by_word_index, index. rewrite C1, nth_error_map', Hw. cbn [option_map bind].
  assert (Hin : In w (alive m)) by (eapply nth_error_In; eauto).
  assert (Hc0 : cls w <> 0). { assert (Hz' := Hz ltac:(intros E; rewrite E in Hin; destruct Hin)). rewrite Forall_forall in Hz'. apply Hz'. rewrite C1. apply in_map. exact Hin. }
  destruct (Nat.eqb_spec (cls w) 0); [congruence|]. destruct (C2 w Hin) as (c & Hc & HT). rewrite Hc. cbn [bind]. rewrite HT. reflexivity.
Qed.

Lemma sized_queue_in A q ph : In ph (sized_queue A q) <-> exists ph0, In ph0 q /\ ph = resize A ph0 /\ count_of A (tranche ph0) <> 0.
Proof.
  unfold sized_queue. split.
  - intros H. apply (Permutation_in _ (sort_perm _)) in H. apply filter_In in H. destruct H as [H1 H2]. apply in_map_iff in H1. destruct H1 as (ph0 & <- & H0).
    exists ph0. split; [exact H0|]. split; [reflexivity|]. intros Hc. unfold resize, size_of in H2. cbn [total_size] in H2. rewrite Hc in H2. discriminate.
  - intros (ph0 & H0 & -> & Hc). apply (Permutation_in _ (Permutation_sym (sort_perm _))). apply filter_In. split; [apply in_map; exact H0|].
    assert (E : exists n, tranche ph0 < n) by (exists (S (tranche ph0)); lia). destruct E as (n & Hn). pose proof (sized_spec A n ph0 Hn) as HS.
    unfold sized, index in HS. rewrite nth_error_map', nth_error_seq in HS by exact Hn. cbn [option_map bind Nat.add] in HS.
    destruct (Nat.eqb_spec (count_of A (tranche ph0)) 0); [congruence|].
    match type of HS with (if N.eqb ?x 0 then _ else _) = _ => destruct (N.eqb_spec x 0) as [|Hnz]; [discriminate|] end.
    injection HS as HS. unfold resize. cbn [total_size]. rewrite <- HS. apply negb_true_iff, N.eqb_neq. exact Hnz.
Qed.
Lemma count_in A t : count_of A t <> 0 <-> exists w, In w A /\ w_tranche w = t.
Proof.
  unfold count_of. split.
  - intros H. destruct (filter (fun w => w_tranche w =? t) A) as [|w l] eqn:E; [cbn in H; congruence|].
    assert (Hin : In w (filter (fun w => w_tranche w =? t) A)) by (rewrite E; left; reflexivity). apply filter_In in Hin. destruct Hin as [H1 H2].
    apply Nat.eqb_eq in H2. eauto.
  - intros (w & H1 & H2). assert (Hin : In w (filter (fun w => w_tranche w =? t) A)) by (apply filter_In; split; [exact H1|apply Nat.eqb_eq; exact H2]).
    destruct (filter (fun w => w_tranche w =? t) A); [destruct Hin|cbn; lia].
Qed.

Lemma start_phrases_spec A q PT ms w0 : nth_error A 0 = Some w0 -> map fst PT = map wm_pm ms ->
  exists Ls, start_phrases ms A q = Ok (mkPS (map fst PT) A q Ls 0 false (map total_size q)) /\
    nth_error Ls 0 = Some (mkLayer 0 (w_tranche w0) (rows PT [])) /\ rowsized PT Ls /\ length Ls = S (max_list (map depth q)).
Proof.
  intros Hw E. unfold start_phrases, index. rewrite Hw. cbn [bind]. rewrite <- E. eexists. split; [reflexivity|]. split; [|split].
  - cbn [nth_error]. do 2 f_equal. unfold rows. rewrite map_map. reflexivity.
  - constructor; [cbn; rewrite !map_length; reflexivity|]. apply Forall_forall. intros l Hl. apply repeat_spec in Hl. subst l. cbn. rewrite !map_length. reflexivity.
  - cbn [length]. rewrite repeat_length. reflexivity.
Qed.

Lemma begin_spec ex exs ml wl dl m rest : Forall good (ex :: exs) -> fits_all ml wl -> sorted_words wl ->
  ran false ex ml wl m -> chain false ml (alive m) exs rest ->
  (begin_phrases dl (m :: rest) = Ok (QDone, RComplete NoPhrases) /\ no_phrase_in wl dl (ex :: exs)) \/
  (exists p, begin_phrases dl (m :: rest) = Ok (QPhrase p, RLogs true) /\ started_any wl dl p) \/
  (exists p, begin_phrases dl (m :: rest) = Ok (QPhrase p, RLogs false) /\ started (ex :: exs) wl dl p).
Proof.
  intros Hg Hf Hs Hr Hc. inversion Hg as [|? ? Hgx Hgs]; subst. cbn [begin_phrases].
  pose proof (fits_alive _ _ _ _ _ Hgx Hf Hr) as Hfa.
  destruct (feed_rest_spec ml exs Hgs (alive m) [] rest) as (rest' & E & Hfull); [rewrite app_nil_r; exact Hfa|exact Hc|].
  rewrite app_nil_r in E, Hfull. rewrite E. cbn [bind].
  destruct (ran_facts false ex ml wl m Hgx Hf Hr) as (_ & _ & Ha).
  set (K := fun w => forallb (fun ex => live_word ex false w) (ex :: exs)).
  assert (HA : filter (fun w => forallb (fun ex => live_word ex false w) exs) (alive m) = filter K wl) by (rewrite Ha; apply filter_andb).
  rewrite HA. destruct (check_tranches_spec (filter K wl) (sorted_filter K wl Hs)) as (tr & Et & Hnd & Htr). rewrite Et. cbn [bind].
  change (initial_queue dl tr) with (prod (seq 2 (dl - 1)) tr).
  assert (Hgood : Forall2 (mgood wl K (prod (seq 2 (dl - 1)) tr)) (ex :: exs) (m :: rest')).
  { apply (full_mgood ml wl _ K (ex :: exs) (m :: rest') (fun _ => true)); auto.
    - replace (filter (fun _ => true) wl) with wl; [exact Hf|]. clear. induction wl; [reflexivity|]. cbn. congruence.
    - replace (filter (fun _ => true) wl) with wl; [split; [exact Hr|exact Hfull]|]. clear. induction wl; [reflexivity|]. cbn. congruence. }
  assert (Hcomp : complete_for wl dl (ex :: exs) K (prod (seq 2 (dl - 1)) tr)).
  { intros p Hp Hlen Hacc. assert (HK : Forall (fun w => K w = true) p).
    { apply Forall_forall. intros w Hw. exact (accepted_live (ex :: exs) p w Hg Hacc Hw). }
    split; [|exact HK]. destruct p as [|w p]; [cbn in Hlen; lia|]. apply in_map_iff. exists (mkPhase (length (w :: p)) (w_tranche w) 0).
    split; [reflexivity|]. apply in_prod. split; [apply in_seq; cbn [depth]; lia|]. split; [|reflexivity]. apply Htr. exists w. split; [|reflexivity].
    apply filter_In. inversion HK; subst. inversion Hp; subst. auto. }
  destruct (optimize_passes_spec wl dl (ex :: exs) tr 100 (seq 2 (dl - 1)) K (m :: rest') Hgood Hcomp)
    as [[E2 Hnone]|(ms' & K' & f & gu & E2 & G1 & G2 & G3 & G4 & G5 & G6)]; rewrite E2; cbn [bind].
  - left. auto.
  - destruct (filter K' wl) as [|w0 A'] eqn:EA.
    + left. split; [reflexivity|]. intros p Hp Hlen Hacc. destruct (G2 p Hp Hlen Hacc) as [_ HK]. destruct p as [|w p]; [cbn in Hlen; lia|].
      inversion HK; subst. inversion Hp; subst. assert (Hin : In w (filter K' wl)) by (apply filter_In; auto). rewrite EA in Hin. destruct Hin.
    + rewrite <- EA in *. destruct (prod (filter f (seq 2 (dl - 1))) tr) as [|ph0 q0] eqn:Eq; [congruence|]. rewrite <- Eq in *.
      assert (Htr' : forall w, In w (filter K' wl) -> In (w_tranche w) tr).
      { intros w Hw. apply filter_In in Hw. destruct Hw as [W1 W2]. apply Htr. exists w. split; [|reflexivity]. apply filter_In. auto. }
      assert (HE : size_queue (filter K' wl) (prod (filter f (seq 2 (dl - 1))) tr) = Ok (sized_queue (filter K' wl) (prod (filter f (seq 2 (dl - 1))) tr))).
      { apply size_queue_spec. intros w Hw. apply max_list_ge. apply in_map_iff. exists (mkPhase (depth ph0) (w_tranche w) 0). split; [reflexivity|].
        assert (H0 : In ph0 (prod (filter f (seq 2 (dl - 1))) tr)) by (rewrite Eq; left; reflexivity). apply in_prod in H0. apply in_prod.
        split; [apply H0|]. split; [apply Htr'; exact Hw|reflexivity]. }
      destruct (sized_queue (filter K' wl) (prod (filter f (seq 2 (dl - 1))) tr)) as [|ph1 q1] eqn:Eq1.
      * left. rewrite EA. rewrite <- EA, HE. cbn [bind]. split; [reflexivity|]. intros p Hp Hlen Hacc. destruct (G2 p Hp Hlen Hacc) as [H1 H2].
        destruct p as [|w p]; [cbn in Hlen; lia|]. inversion H2; subst. inversion Hp; subst.
        assert (Hin : In w (filter K' wl)) by (apply filter_In; auto).
        assert (Hx : In (resize (filter K' wl) (mkPhase (length (w :: p)) (w_tranche w) 0)) (sized_queue (filter K' wl) (prod (filter f (seq 2 (dl - 1))) tr))).
        { apply sized_queue_in. eexists. split; [|split; [reflexivity|]].
          - apply in_map_iff in H1. destruct H1 as (ph & Hd & Hph). apply in_prod in Hph. apply in_prod. cbn [depth tranche total_size].
            split; [rewrite <- Hd; apply Hph|]. split; [apply Htr'; exact Hin|reflexivity].
          - apply count_in. exists w. auto. }
        rewrite Eq1 in Hx. destruct Hx.
      * rewrite <- Eq1 in *. right. rewrite EA. rewrite <- EA. rewrite HE. cbn [bind]. rewrite Eq1. rewrite <- Eq1.
        destruct gu.
        -- left. assert (Hi : index (filter K' wl) 0 = Ok w0) by (rewrite EA; reflexivity). unfold start_phrases. rewrite Hi. cbn [bind]. eexists. split; [reflexivity|].
           exists K', (filter f (seq 2 (dl - 1))), tr, (map wm_pm ms'), w0. eexists. cbv zeta. split; [rewrite EA; reflexivity|]. split; [congruence|]. split; [apply strict_filter, seq_strict|]. split; [exact Hnd|].
           split; [intros d Hd; apply filter_In in Hd; destruct Hd as [Hd _]; apply in_seq in Hd; lia|]. split; [|split; [reflexivity|split; [reflexivity|split]]].
           ++ assert (Hne' : filter K' wl <> []) by congruence. specialize (G6 Hne'). clear - G1 G6 Hne'. revert G6. induction G1 as [|ex' m' exs' ms' Hm _ IH]; intros G6; [constructor|]. inversion_clear G6. constructor; [exact (mgood_steps _ _ _ _ _ Hm H Hne')|exact (IH H0)].
           ++ constructor; [cbn; rewrite !map_length; reflexivity|]. apply Forall_forall. intros l Hl. apply repeat_spec in Hl. subst l. cbn. rewrite !map_length. reflexivity.
           ++ cbn [length]. rewrite repeat_length. reflexivity.
        -- right. destruct (all_ready wl K' _ _ _ G1 (G5 eq_refl)) as (PT & EP & HPT); [congruence|].
           assert (Hw0 : nth_error (filter K' wl) 0 = Some w0) by (rewrite EA; reflexivity).
           destruct (start_phrases_spec (filter K' wl) (sized_queue (filter K' wl) (prod (filter f (seq 2 (dl - 1))) tr)) PT ms' w0 Hw0 EP) as (Ls & ES & L1 & L2 & L3).
           rewrite ES. cbn [bind]. eexists. split; [reflexivity|].
           exists K', (filter f (seq 2 (dl - 1))), tr, PT, w0, Ls. cbv zeta. split; [exact Hw0|]. split; [congruence|]. split; [apply strict_filter, seq_strict|].
           split; [exact Hnd|]. split; [|split; [exact Htr'|split; [exact G2|split; [exact HPT|split; [reflexivity|auto]]]]].
           intros d Hd. apply filter_In in Hd. destruct Hd as [Hd _]. apply in_seq in Hd. lia.
Qed.
