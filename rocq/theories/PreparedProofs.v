(** Prepared matchers accept what their expression accepts. *)
From Verif Require Export Prepared SearchProofs RunProofs.

Section prepared.
Variable ex : expression.
Hypothesis Hg : good ex.
Variable wl : list word.

Definition fine (opt : bool) (ws : list word) (md : nat) (m : word_matcher) : Prop :=
  exists k K, ws = filter K wl /\ matcher_ok ex md wl k m /\ (forall w, In w wl -> k w = true -> K w = true) /\
    (forall p, phrases md ws p -> accepts_text ex (phrase_text p) -> Forall (fun w => k w = true) p) /\
    (opt = true -> nozero m).

Lemma max_list_le l b : Forall (fun x => x <= b) l -> max_list l <= b.
Proof. induction 1 as [|x l Hx _ IH]; cbn [max_list fold_right]; [lia|]. unfold max_list in IH. lia. Qed.
Lemma max_depth_le md q : Forall (fun ph => depth ph <= md) q -> max_list (map depth q) <= md.
Proof. intros H. apply max_list_le. apply Forall_map. exact H. Qed.

Lemma one_live w p : In w p -> accepts_text ex (phrase_text p) -> live_word ex false w = true.
Proof.
  intros Hw Ha. unfold live_word. destruct (survives ex false (w_chars w)) eqn:E; [reflexivity|]. exfalso.
  apply in_split in Hw. destruct Hw as (a & b & ->). unfold phrase_text in Ha. rewrite map_app, concat_app in Ha. cbn [map concat] in Ha.
  eapply dead_word_useless; eauto.
Qed.
Lemma filter_true {A} (l : list A) : l = filter (fun _ => true) l.
Proof. induction l as [|a l IH]; [reflexivity|]. cbn. f_equal. exact IH. Qed.
Lemma fine_words ml md m r : Forall (fun w => length (w_chars w) < ml) wl -> iter_last false wl (wm_new ex ml) = Ok (m, r) -> fine false wl md m.
Proof.
  intros Hf E. destruct (iter_last_spec false ex ml Hg [] wl (wm_new ex ml) Hf eq_refl) as (m' & E' & Hr). cbn [app] in E', Hr.
  assert (m' = m) by congruence. subst m'. exists (live_word ex false), (fun _ => true). split; [apply filter_true|]. split; [|split; [|split]].
  - apply (ran_matcher_ok ex ml); auto.
  - reflexivity.
  - intros p _ Ha. apply Forall_forall. intros w Hw. exact (one_live w p Hw Ha).
  - discriminate.
Qed.
Lemma fine_optimized opt ws md m K q : fine opt ws md m -> q <> [] -> Forall (fun ph => depth ph <= md) q ->
  exists m' did, optimize_for_wordlist m (filter K (alive m)) q = Ok (m', did) /\ fine true (filter K (alive m)) (max_list (map depth q)) m'.
Proof.
  intros (k & K0 & -> & Hm & Hk & Hp & _) Hq Hd. assert (Ha : alive m = filter k wl) by apply Hm. rewrite Ha, filter_andb.
  destruct (optimize_ok ex md wl k (fun w => k w && K w) m q Hm) with (md' := max_list (map depth q)) as (m' & did & k' & E & Hm' & Hk' & Hp' & Hz); auto.
  - intros w _ H. apply andb_true_iff in H. apply H.
  - apply max_depth_le. exact Hd.
  - exists m', did. split; [exact E|]. exists k', (fun w => k w && K w). repeat split; auto; apply Hm'.
Qed.
Lemma prepared_fine opt ws md m : prepared ex wl opt ws md m -> fine opt ws md m.
Proof.
  induction 1 as [ml md m r Hf E|opt ws md m K q m' did H IH Hq Hd E]; [eapply fine_words; eauto|].
  destruct (fine_optimized _ _ _ _ K q IH Hq Hd) as (m2 & d2 & E2 & H2). assert (m2 = m') by congruence. subst m2. exact H2.
Qed.

Lemma optimize_never_fails opt ws md m K q : prepared ex wl opt ws md m -> q <> [] -> Forall (fun ph => depth ph <= md) q ->
  exists m' did, optimize_for_wordlist m (filter K (alive m)) q = Ok (m', did).
Proof. intros H Hq Hd. destruct (fine_optimized _ _ _ _ K q (prepared_fine _ _ _ _ H) Hq Hd) as (m2 & d2 & E2 & _). eauto. Qed.

Lemma prepared_sub opt ws md m : prepared ex wl opt ws md m -> exists K, alive m = filter K ws.
Proof.
  intros H. destruct (prepared_fine _ _ _ _ H) as (k & K & -> & Hm & Hk & _). assert (Ha : alive m = filter k wl) by apply Hm.
  exists k. rewrite Ha, filter_andb. apply filter_ext_in. intros w Hw. specialize (Hk w Hw). destruct (k w); [rewrite Hk; reflexivity|]. rewrite andb_false_r. reflexivity.
Qed.
Lemma prepared_keeps opt ws md m p : prepared ex wl opt ws md m -> p <> [] -> length p <= md -> Forall (fun w => In w ws) p ->
  accepts_text ex (phrase_text p) -> Forall (fun w => In w (alive m)) p.
Proof.
  intros H P1 P2 P3 Ha. destruct (prepared_fine _ _ _ _ H) as (k & K & -> & Hm & Hk & Hp & _). assert (E : alive m = filter k wl) by apply Hm.
  specialize (Hp p (conj P1 (conj P2 P3)) Ha). rewrite Forall_forall in *. intros w Hw. rewrite E. apply filter_In. split; [|apply Hp, Hw].
  apply P3 in Hw. apply filter_In in Hw. apply Hw.
Qed.

Lemma follow_run pm A tbl : (forall wi w, nth_error A wi = Some w -> forall prev nxt, step_by_word_index pm wi prev nxt = Ok (step (fuzz_limit pm) (tbl w) prev nxt)) ->
  forall ps p r, phrase_at A ps p -> follow pm ps r = Ok (run (fuzz_limit pm) (map tbl p) r).
Proof.
  intros Hst ps p r H. revert r. induction H as [|i w ps p Hi _ IH]; intros r; [reflexivity|]. cbn [follow map]. rewrite (Hst i w Hi). cbn [bind]. rewrite IH. reflexivity.
Qed.
Lemma prepared_takes ws md m ps p : prepared ex wl true ws md m -> p <> [] -> length p <= md -> phrase_at (alive m) ps p ->
  exists b, takes (wm_pm m) ps b /\ (b = true <-> accepts_text ex (phrase_text p)).
Proof.
  intros H P1 P2 P3. destruct (prepared_fine _ _ _ _ H) as (k & K & -> & (M1 & M2 & M3 & M4 & M5) & Hk & Hp & Hz). specialize (Hz eq_refl).
  assert (Hin : Forall (fun w => In w (alive m)) p).
  { clear - P3. induction P3; constructor; auto. eapply nth_error_In; eauto. }
  destruct M5 as [M5|(cls & tbl & C1 & C2 & C3 & _)]; [rewrite M5 in Hin; destruct p as [|w p]; [congruence|]; inversion Hin; contradiction|].
  assert (Hst : forall wi w, nth_error (alive m) wi = Some w -> forall prev nxt, step_by_word_index (wm_pm m) wi prev nxt = Ok (step (fuzz_limit (wm_pm m)) (tbl w) prev nxt)).
  { intros wi w Hw prev nxt. unfold step_by_word_index, index. rewrite C1, nth_error_map', Hw. cbn [option_map bind].
    assert (Hc0 : cls w <> 0).
    { assert (Hne : alive m <> []) by (intros E0; rewrite E0 in Hw; destruct wi; discriminate).
      assert (Hz' := Hz Hne). rewrite Forall_forall in Hz'. apply Hz'. rewrite C1. apply in_map. eapply nth_error_In; eauto. }
    destruct (Nat.eqb_spec (cls w) 0); [congruence|]. destruct (C2 w) as (c & Hc & HT); [eapply nth_error_In; eauto|].
    rewrite Hc. cbn [bind]. rewrite HT. reflexivity. }
  eexists. split; [eexists; split; [exact (follow_run _ _ tbl Hst ps p _ P3)|reflexivity]|].
  unfold has_success_state. rewrite run_accepts by apply M3. exact (C3 p (conj P1 (conj P2 Hin))).
Qed.

Lemma prepared_filter opt ws md m q : prepared ex wl opt ws md m ->
  exists P, filter_search_phases (wm_pm m) q = Ok (filter P q) /\
  forall ph, depth ph <= md -> P ph = false -> forall p, Forall (fun w => In w ws) p -> length p = depth ph -> ~ accepts_text ex (phrase_text p).
Proof.
  intros H. destruct (prepared_fine _ _ _ _ H) as (k & K & E & (M1 & M2 & M3 & M4 & M5) & Hk & Hp & _).
  exists (fun ph => depth_possible (wm_pm m) (depth ph)). split.
  - apply filter_search_phases_spec. destruct M3 as (_ & _ & M3 & _). eapply Forall_impl; [|exact M3]. intros c Hc. apply Hc.
  - intros ph Hd HP p P1 P2 Ha. rewrite <- P2 in HP, Hd. assert (Pne : p <> []) by (intros ->; discriminate HP).
    assert (Hin := prepared_keeps _ _ _ _ p H Pne Hd P1 Ha).
    destruct M5 as [M5|(cls & tbl & C1 & C2 & C3 & _)]; [rewrite M5 in Hin; destruct p as [|w p]; [congruence|]; inversion Hin; contradiction|].
    assert (HT : Forall (fun T => In T (map c_table (classes (wm_pm m)))) (map tbl p)).
    { apply Forall_map. eapply Forall_impl; [|exact Hin]. intros w Hw. destruct (C2 w Hw) as (c & Hc & <-). apply in_map. eapply nth_error_In; eauto. }
    apply (depth_impossible (wm_pm m) (map tbl p)); [apply M3|exact HT|rewrite map_length; exact HP|].
    apply (C3 p (conj Pne (conj Hd Hin))). exact Ha.
Qed.
End prepared.
