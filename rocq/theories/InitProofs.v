(** The matchers at the end of the single-word phase. *)
From Verif Require Export WordRun.

Definition cls_of (cs : list wclass) (T : table) : nat := match find_table T cs 0 with Some i => i | None => 0 end.
Definition known (cs : list wclass) (T : table) : Prop := exists i, find_table T cs 0 = Some i.

Lemma find_table_ext T cs cs' ext : Forall2 (fun c c' => c_table c' = c_table c) cs cs' -> forall i k, find_table T cs i = Some k ->
  find_table T (cs' ++ ext) i = Some k.
Proof.
  induction 1 as [|c c' cs cs' H _ IH]; intros i k Hf; [discriminate|]. cbn [find_table app] in *. rewrite H.
  destruct (table_eqb (c_table c) T); [exact Hf|apply IH; exact Hf].
Qed.
Lemma find_table_new T cs : find_table T cs 0 = None -> forall i c, find_table T cs i = None -> c_table c = T ->
  find_table T (cs ++ [c]) i = Some (i + length cs).
Proof.
  intros _. induction cs as [|x cs IH]; intros i c Hf Hc; cbn [find_table app length] in *.
  - assert (E : table_eqb (c_table c) T = true).
    { subst T. pose proof (find_table_spec (c_table c) [c] 0) as H. cbn in H. destruct (table_eqb (c_table c) (c_table c)); [reflexivity|].
      exfalso. apply (H c (or_introl eq_refl)). reflexivity. }
    rewrite E. f_equal. lia.
  - destruct (table_eqb (c_table x) T); [discriminate|]. rewrite (IH (S i) c Hf Hc). f_equal. lia.
Qed.
Lemma same_tables_refl cs : Forall2 (fun c c' : wclass => c_table c' = c_table c) cs cs.
Proof. induction cs; constructor; auto. Qed.
Lemma same_tables_upd cs i c c' : nth_error cs i = Some c -> c_table c' = c_table c ->
  Forall2 (fun c c' => c_table c' = c_table c) cs (upd cs i c').
Proof.
  revert i. induction cs as [|x cs IH]; intros [|i] H HT; cbn in *; try discriminate.
  - injection H as ->. constructor; [exact HT|apply same_tables_refl].
  - constructor; [reflexivity|apply IH; auto].
Qed.

Lemma word_table_ok ex w : good ex -> tab_ok (length (states ex)) (fuzz ex + 1) (word_table ex w).
Proof.
  intros Hg. split; [apply word_table_length|]. split.
  - apply Forall_forall. intros r Hr. apply In_nth_error in Hr. destruct Hr as (s & Hs).
    assert (Hsl : s < length (states ex)) by (rewrite <- (word_table_length ex w); exact (nth_lt _ _ _ Hs)).
    rewrite word_table_nth in Hs by exact Hsl. injection Hs as <-. rewrite word_row_length. lia.
  - intros s f d Hm. destruct (le_lt_dec (length (states ex)) s) as [Hs|Hs]; [rewrite word_cell_0, mem_0 in Hm by exact Hs; discriminate|].
    destruct (le_lt_dec f (fuzz ex)) as [Hf|Hf].
    + apply (word_cell_lt ex Hg w s f d Hf Hm).
    + rewrite word_cell in Hm by exact Hs. rewrite nth_overflow in Hm by (rewrite word_row_length; lia). rewrite mem_0 in Hm. discriminate.
Qed.

Definition wtab (ex : expression) (w : word) : table := word_table ex (w_chars w).
Definition classed (ex : expression) (m : word_matcher) : Prop :=
  let cs := classes (wm_pm m) in
  Forall (class_ok (length (states ex)) (fuzz ex + 1)) cs /\
  (exists c, nth_error cs 0 = Some c /\ c_table c = empty_table (length (states ex)) (fuzz ex + 1)) /\
  Forall (fun w => known cs (wtab ex w)) (alive m) /\
  word_classes (wm_pm m) = map (fun w => cls_of cs (wtab ex w)) (alive m).

Lemma classed_new ex ml : classed ex (wm_new ex ml).
Proof.
  split; [|split; [|split]].
  - constructor; [|constructor]. split; [apply empty_table_ok|reflexivity].
  - exists (mkClass (empty_table (length (states ex)) (fuzz ex + 1)) 0 0). auto.
  - constructor.
  - reflexivity.
Qed.
Lemma insert_classes pm w T : exists i cs' ext, insert_word_table pm w T =
    Ok (mkPM (pm_ex pm) (fuzz_limit pm) (states_len pm) (start_states pm) (cs' ++ ext) (word_classes pm ++ [i])) /\
  Forall2 (fun c c' => c_table c' = c_table c) (classes pm) cs' /\ find_table T (cs' ++ ext) 0 = Some i /\
  (forall n limit, tab_ok n limit T -> Forall (class_ok n limit) (classes pm) -> Forall (class_ok n limit) (cs' ++ ext)).
Proof.
  unfold insert_word_table. destruct (find_table T (classes pm) 0) as [i|] eqn:E.
  - pose proof (find_table_spec T (classes pm) 0) as H. rewrite E in H. destruct H as [_ (c & Hc & HT)]. rewrite Nat.sub_0_r in Hc.
    unfold class_add, index. rewrite Hc. cbn [bind]. exists i, (upd (classes pm) i (add_word c w)), []. rewrite app_nil_r. split; [reflexivity|].
    assert (Hs : Forall2 (fun c c' => c_table c' = c_table c) (classes pm) (upd (classes pm) i (add_word c w))) by (eapply same_tables_upd; [exact Hc|reflexivity]).
    split; [exact Hs|]. split; [rewrite <- (app_nil_r (upd _ _ _)); eapply find_table_ext; eauto|].
    intros n limit _ Hok. apply Forall_forall. intros x Hx. apply In_nth_error in Hx. destruct Hx as (j & Hj).
    rewrite nth_error_upd in Hj. rewrite Forall_forall in Hok. destruct (i =? j).
    + destruct (j <? length (classes pm)); [|discriminate]. injection Hj as <-. apply nth_error_In in Hc. destruct (Hok c Hc) as [H1 H2].
      split; [exact H1|]. cbn. rewrite H2. reflexivity.
    + apply nth_error_In in Hj. auto.
  - exists (length (classes pm)), (classes pm), [add_word (mkClass T 0 0) w]. split; [reflexivity|]. split; [apply same_tables_refl|].
    split; [apply (find_table_new T (classes pm) E 0); [exact E|reflexivity]|].
    intros n limit HT Hok. apply Forall_app. split; [exact Hok|]. constructor; [|constructor]. split; [exact HT|reflexivity].
Qed.

Lemma classed_word ex ml m w m' b : good ex -> wm_base ex false ml m -> length (w_chars w) < ml -> classed ex m ->
  process_word false m w = Ok (m', b) -> classed ex m'.
Proof.
  intros Hg Hb Hw (C1 & C2 & C3 & C4) E. destruct (process_word_spec ex false ml m w Hg Hb Hw) as (m2 & b2 & E2 & _ & _ & Ha & _).
  assert (m2 = m') by congruence. subst m2. unfold classed. destruct (survives ex false (w_chars w)).
  - destruct Ha as [Ha (T & Hag & HI)]. apply agrees_full in Hag. subst T.
    destruct (insert_classes (wm_pm m) w (word_table ex (w_chars w))) as (i & cs' & ext & E3 & Hs & Hf & Hok).
    rewrite HI in E3. injection E3 as E3. rewrite E3. cbn [classes word_classes]. rewrite Ha.
    assert (Hk : forall T j, find_table T (classes (wm_pm m)) 0 = Some j -> find_table T (cs' ++ ext) 0 = Some j) by (intros; eapply find_table_ext; eauto).
    split; [apply Hok; [apply word_table_ok; exact Hg|exact C1]|]. split; [|split].
    + destruct C2 as (c & H1 & H2). destruct (classes (wm_pm m)) as [|c0 cs]; [discriminate|]. inversion Hs; subst. injection H1 as ->.
      eexists. split; [reflexivity|congruence].
    + apply Forall_app. split; [|constructor; [exists i; exact Hf|constructor]]. eapply Forall_impl; [|exact C3].
      intros x (j & Hj). exists j. apply Hk. exact Hj.
    + rewrite map_app, C4. cbn [map]. f_equal; [|unfold cls_of, wtab; rewrite Hf; reflexivity]. apply map_ext_in.
      intros x Hx. rewrite Forall_forall in C3. destruct (C3 x Hx) as (j & Hj). unfold cls_of. rewrite Hj, (Hk _ _ Hj). reflexivity.
  - destruct Ha as [-> ->]. split; [exact C1|]. split; [exact C2|]. split; [exact C3|exact C4].
Qed.
Lemma ran_classed ex ml ws : good ex -> fits_all ml ws -> forall m, ran false ex ml ws m -> classed ex m.
Proof.
  intros Hg. induction ws as [|w ws IH] using rev_ind; intros Hf m Hr.
  - unfold ran in Hr. injection Hr as <-. apply classed_new.
  - assert (Hf0 : fits_all ml ws) by (apply Forall_app in Hf; apply Hf). destruct (ran_ok false ex ml ws Hg Hf0) as (m0 & Hr0).
    destruct (ran_snoc false ex ml ws w m0 Hg Hf Hr0) as (m' & E & Hr'). unfold ran in *. assert (m' = m) by congruence. subst m'.
    assert (Hw : length (w_chars w) < ml) by (apply Forall_app in Hf; destruct Hf as [_ Hf]; inversion Hf; assumption).
    eapply classed_word; eauto. apply (ran_facts false ex ml ws m0 Hg Hf0 Hr0).
Qed.

(** Every matcher is as [optimize_ok] wants it. *)
Lemma ran_matcher_ok ex ml ws md m : good ex -> fits_all ml ws -> ran false ex ml ws m ->
  matcher_ok ex md ws (live_word ex false) m.
Proof.
  intros Hg Hf Hr. destruct (ran_facts false ex ml ws m Hg Hf Hr) as (Hb & _ & Ha). destruct Hb as (B1 & B2 & B3 & B4 & _).
  destruct (ran_classed ex ml ws Hg Hf m Hr) as (C1 & C2 & C3 & C4).
  assert (Hn : 0 < length (states ex)) by exact (proj1 (proj1 Hg)).
  split; [exact B1|]. split; [exact B2|]. split; [|split; [exact Ha|right]].
  - unfold pm_shape. rewrite B2, B3. split; [exact Hn|]. split; [lia|]. split; [exact C1|exact C2].
  - exists (fun w => cls_of (classes (wm_pm m)) (wtab ex w)), (wtab ex). split; [exact C4|]. split; [|split].
    + intros w Hw. rewrite Forall_forall in C3. destruct (C3 w Hw) as (i & Hi). unfold cls_of. rewrite Hi.
      pose proof (find_table_spec (wtab ex w) (classes (wm_pm m)) 0) as H. rewrite Hi in H. destruct H as [_ (c & Hc & HT)].
      rewrite Nat.sub_0_r in Hc. exists c. auto.
    + intros p (Hne & _ & _). unfold accepted. rewrite B2, B3, B4. replace (map (wtab ex) p) with (map (word_table ex) (map w_chars p)) by (rewrite map_map; reflexivity).
      apply pacc_text; [exact Hg|]. destruct p; [congruence|discriminate].
    + left. rewrite B2, B4. split.
      * apply (epsilon_states_spec ex Hg 0 0 Hn). constructor.
      * intros w _ s f d Hs Hfl Hm. apply (start_dominated ex Hg (w_chars w) s f d Hs); [lia|exact Hm].
Qed.
