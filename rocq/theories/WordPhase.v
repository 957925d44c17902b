(** The word matcher: prefix cache, dead words, single-word matches. *)
From Verif Require Export FillProofs Matcher.

(** The transition table of a word, computed from scratch. *)
Definition word_table (ex : expression) (w : list char) : table :=
  map (fun s => word_row ex s w) (seq 0 (length (states ex))).

Lemma word_table_length ex w : length (word_table ex w) = length (states ex).
Proof. unfold word_table. rewrite map_length, seq_length. reflexivity. Qed.
Lemma word_table_nth ex w s : s < length (states ex) -> nth_error (word_table ex w) s = Some (word_row ex s w).
Proof.
  intros H. unfold word_table. rewrite nth_error_map', nth_error_seq by exact H. reflexivity.
Qed.

Lemma word_row_snoc ex s w c : word_row ex s (w ++ [c]) = next_row ex (word_row ex s w) c.
Proof. unfold word_row, row_run. rewrite fold_left_app. reflexivity. Qed.

Lemma forallb_ext_in {A} (p q : A -> bool) l : (forall a, In a l -> p a = q a) -> forallb p l = forallb q l.
Proof. induction l as [|a l IH]; intros H; [reflexivity|]. cbn. rewrite (H a), IH; cbn; auto. intros; apply H; cbn; auto. Qed.

Section fill.
Variable ex : expression.
Variable sgl : bool.
Let n := n_start_states ex sgl.

(** The rows a fill computes are those of the word. *)
Definition agrees (T : table) (w : list char) : Prop :=
  length T = length (states ex) /\ firstn n T = firstn n (word_table ex w).
Definition shaped (ts : list table) : Prop := Forall (fun T => length T = length (states ex)) ts.
Definition cached (ts : list table) (w : list char) : Prop :=
  forall j, j <= length w -> exists T, nth_error ts j = Some T /\ agrees T (firstn j w).
Definition dead (w : list char) : Prop := Forall (fun r => empty_row r = true) (firstn n (word_table ex w)).

(** The fill gives up before a symbol it looks at when nothing is reachable any more. *)
Definition deadb (w : list char) : bool := forallb empty_row (firstn n (word_table ex w)).
Definition survives (w : list char) : bool :=
  forallb (fun j => match nth_error w j with
                    | Some c => ignored ex c || negb (deadb (firstn j w))
                    | None => true
                    end) (seq 0 (length w)).
Lemma deadb_dead w : deadb w = true <-> dead w.
Proof. unfold deadb, dead. rewrite forallb_forall, Forall_forall. reflexivity. Qed.

Lemma firstn_snoc {A} (w : list A) c j : j <= length w -> firstn j (w ++ [c]) = firstn j w.
Proof. intros H. rewrite firstn_app. replace (j - length w) with 0 by lia. cbn. apply app_nil_r. Qed.

Lemma survives_snoc w c : survives (w ++ [c]) = survives w && (ignored ex c || negb (deadb w)).
Proof.
  unfold survives. rewrite app_length. cbn [length]. rewrite seq_app, forallb_app. cbn [seq forallb Nat.add].
  rewrite andb_true_r. f_equal.
  - apply forallb_ext_in. intros j Hj. apply in_seq in Hj. rewrite nth_error_app1 by lia. rewrite firstn_snoc by lia. reflexivity.
  - rewrite nth_error_app2, Nat.sub_diag by lia. cbn [nth_error]. rewrite firstn_snoc, firstn_all by lia. reflexivity.
Qed.
Lemma survives_app w v : survives (w ++ v) = true -> survives w = true.
Proof.
  induction v as [|c v IH] using rev_ind; [rewrite app_nil_r; auto|].
  rewrite app_assoc, survives_snoc. intros H. apply andb_true_iff in H. tauto.
Qed.

Lemma cached_upd ts w c T : cached ts w -> length w + 1 < length ts -> agrees T (w ++ [c]) ->
  cached (upd ts (S (length w)) T) (w ++ [c]).
Proof.
  intros H Hl HT j Hj. rewrite app_length in Hj. cbn in Hj. rewrite nth_error_upd.
  destruct (Nat.eqb_spec (S (length w)) j) as [<-|Hne].
  - replace (S (length w) <? length ts) with true by (symmetry; apply Nat.ltb_lt; lia). exists T. split; [reflexivity|].
    rewrite firstn_all2 by (rewrite app_length; cbn; lia). exact HT.
  - rewrite firstn_snoc by lia. apply H. lia.
Qed.

Lemma n_le : n <= length (states ex) \/ length (states ex) = 0.
Proof. unfold n, n_start_states. destruct sgl; lia. Qed.

Lemma agrees_step cur nxt w c : agrees cur w -> length nxt = length (states ex) -> ignored ex c = false ->
  agrees (step_table ex sgl c cur nxt) (w ++ [c]).
Proof.
  intros [Hl Ha] Hn Hi. unfold step_table. fold n. split.
  - rewrite app_length, map_length, firstn_length, skipn_length. lia.
  - rewrite Ha, firstn_app, map_length, firstn_length, word_table_length.
    rewrite firstn_all2 by (rewrite map_length, firstn_length; lia).
    assert (H0 : firstn (n - Nat.min n (length (states ex))) (skipn n nxt) = []).
    { destruct (le_lt_dec n (length (states ex))).
      - replace (n - Nat.min n (length (states ex))) with 0 by lia. reflexivity.
      - rewrite (skipn_all2 nxt) by lia. apply firstn_nil. }
    rewrite H0, app_nil_r, <- firstn_map. f_equal. unfold word_table. rewrite map_map.
    apply map_ext. intros s. rewrite word_row_snoc. unfold next_row. rewrite Hi. reflexivity.
Qed.
Lemma agrees_ignored cur w c : agrees cur w -> ignored ex c = true -> agrees cur (w ++ [c]).
Proof.
  intros [Hl Ha] Hi. split; [exact Hl|]. rewrite Ha. f_equal. unfold word_table. apply map_ext. intros s.
  rewrite word_row_snoc. unfold next_row. rewrite Hi. reflexivity.
Qed.

Lemma shaped_upd ts i T : shaped ts -> length T = length (states ex) -> shaped (upd ts i T).
Proof.
  unfold shaped. rewrite !Forall_forall. intros H HT T' Hin. apply In_nth_error in Hin. destruct Hin as (j & Hj).
  rewrite nth_error_upd in Hj. destruct (i =? j).
  - match type of Hj with context[if ?b then _ else _] => destruct b end; [injection Hj as <-; exact HT|discriminate].
  - apply H. eapply nth_error_In; eauto.
Qed.

Lemma fill_spec cs : forall w ts, shaped ts -> cached ts w -> survives w = true -> length w + length cs < length ts ->
  exists ts' k, fill ex sgl cs (length w) ts = Ok (ts', length w + k) /\ k <= length cs /\
    length ts' = length ts /\ shaped ts' /\ cached ts' (w ++ firstn k cs) /\ survives (w ++ firstn k cs) = true /\
    (k < length cs -> dead (w ++ firstn k cs) /\ survives (w ++ cs) = false).
Proof.
  induction cs as [|c cs IH]; intros w ts Hsh Hc Hsv Hl; cbn [fill].
  - exists ts, 0. rewrite Nat.add_0_r, app_nil_r. cbn. repeat split; auto; lia.
  - cbn [length] in Hl. destruct (Hc (length w) (le_n _)) as (cur & Hcur & Ha). rewrite firstn_all in Ha.
    assert (exists nxt, nth_error ts (S (length w)) = Some nxt) as [nxt Hnxt] by (apply nth_some; lia).
    assert (Hln : length nxt = length (states ex)).
    { unfold shaped in Hsh. rewrite Forall_forall in Hsh. apply Hsh. eapply nth_error_In; eauto. }
    unfold index. rewrite Hcur, Hnxt. cbn [bind].
    assert (Hrec : forall T, agrees T (w ++ [c]) -> ignored ex c || negb (deadb w) = true -> exists ts' k,
       fill ex sgl cs (S (length w)) (upd ts (S (length w)) T) = Ok (ts', length w + k) /\ k <= S (length cs) /\
       length ts' = length ts /\ shaped ts' /\ cached ts' (w ++ firstn k (c :: cs)) /\ survives (w ++ firstn k (c :: cs)) = true /\
       (k < S (length cs) -> dead (w ++ firstn k (c :: cs)) /\ survives (w ++ c :: cs) = false)).
    { intros T HT Hgo. destruct (IH (w ++ [c]) (upd ts (S (length w)) T)) as (ts' & k & He & Hk & Hl' & Hs' & Hc' & Hsv' & Hd).
      - apply shaped_upd; [exact Hsh|]. exact (proj1 HT).
      - apply cached_upd; auto. lia.
      - rewrite survives_snoc, Hsv. exact Hgo.
      - rewrite upd_length, app_length. cbn. lia.
      - rewrite app_length in He. cbn [length] in He. rewrite upd_length in Hl'. exists ts', (S k).
        replace (S (length w)) with (length w + 1) at 1 by lia. rewrite He. replace (length w + 1 + k) with (length w + S k) by lia.
        rewrite <- !app_assoc in Hc', Hd, Hsv'. rewrite <- app_assoc in Hd. cbn [app] in Hc', Hd, Hsv'. cbn [firstn].
        repeat split; auto; try lia; apply Hd; lia. }
    destruct (ignored ex c) eqn:Hi.
    { apply Hrec; [apply agrees_ignored; auto|reflexivity]. }
    destruct (forallb empty_row (firstn (n_start_states ex sgl) cur)) eqn:Hz.
    + exists (upd ts (S (length w)) (step_table ex sgl c cur nxt)), 0. rewrite Nat.add_0_r. cbn [firstn]. rewrite app_nil_r, upd_length.
      assert (Hdb : deadb w = true). { unfold deadb. rewrite <- (proj2 Ha). exact Hz. }
      repeat split; auto; [cbn; lia| | | |].
      * apply shaped_upd; [exact Hsh|]. exact (proj1 (agrees_step cur nxt w c Ha Hln Hi)).
      * intros j Hj. rewrite nth_error_upd. destruct (Nat.eqb_spec (S (length w)) j); [lia|]. apply Hc. exact Hj.
      * apply deadb_dead. exact Hdb.
      * destruct (survives (w ++ c :: cs)) eqn:Hx; [|reflexivity]. replace (w ++ c :: cs) with ((w ++ [c]) ++ cs) in Hx by (rewrite <- app_assoc; reflexivity).
        apply survives_app in Hx. rewrite survives_snoc, Hi, Hdb in Hx. cbn in Hx. rewrite andb_false_r in Hx. discriminate.
    + apply Hrec; [apply agrees_step; auto|]. cbn [orb]. unfold deadb. rewrite <- (proj2 Ha). unfold n. rewrite Hz. reflexivity.
Qed.

(** The same through the slice arithmetic of the caller. *)
Lemma fill_table_spec cs w ts : shaped ts -> cached ts w -> survives w = true -> length w + length cs < length ts ->
  exists ts' k, fill_transition_table ex sgl cs (length w) ts = Ok (ts', k) /\ k <= length cs /\
    length ts' = length ts /\ shaped ts' /\ cached ts' (w ++ firstn k cs) /\ survives (w ++ firstn k cs) = true /\
    (k < length cs -> dead (w ++ firstn k cs) /\ survives (w ++ cs) = false).
Proof.
  intros H1 H2 H3 H4. destruct (fill_spec cs w ts H1 H2 H3 H4) as (ts' & k & He & HR). exists ts', k. split; [|exact HR].
  unfold fill_transition_table. rewrite He. cbn [bind]. do 2 f_equal. lia.
Qed.
End fill.

(** ** Prefixes *)
Lemma common_prefix_spec x : forall y, let k := common_prefix x y in
  k <= length x /\ k <= length y /\ firstn k x = firstn k y.
Proof.
  induction x as [|a x IH]; intros [|b y]; cbn; try (repeat split; auto; lia).
  destruct (Nat.eqb_spec a b) as [->|]; cbn; [|repeat split; auto; lia].
  destruct (IH y) as (H1 & H2 & H3). repeat split; try lia. f_equal. exact H3.
Qed.

(** A dead word has no path with an affordable number of edits. *)
Lemma empty_row_cum r f t : empty_row r = true -> ~ cum r f t.
Proof.
  unfold empty_row. rewrite forallb_forall. intros H (g & s & _ & Hn & Hm). apply nth_error_In in Hn. apply H in Hn.
  apply N.eqb_eq in Hn. subst s. rewrite mem_0 in Hm. discriminate.
Qed.
Lemma dead_spec ex sgl w s : good ex -> dead ex sgl w -> s < n_start_states ex sgl -> s < length (states ex) ->
  forall f t, f <= fuzz ex -> ~ hits ex s (visible ex w) f t.
Proof.
  intros Hg Hd Hs Hs' f t Hf HH. apply (word_row_spec ex Hg w s Hs' f t Hf) in HH. revert HH. apply empty_row_cum.
  unfold dead in Hd. rewrite Forall_forall in Hd. apply Hd. apply (nth_error_In _ s).
  rewrite nth_error_firstn'. replace (s <? n_start_states ex sgl) with true by (symmetry; apply Nat.ltb_lt; lia).
  apply word_table_nth. exact Hs'.
Qed.

Lemma visible_app ex x y : visible ex (x ++ y) = visible ex x ++ visible ex y.
Proof. apply filter_app. Qed.
Lemma hits_app ex x y s f t : hits ex s (x ++ y) f t <->
  exists g h m, g + h <= f /\ hits ex s x g m /\ hits ex m y h t.
Proof.
  split.
  - intros (u & k & Hk & Hf & Hp). apply fuzzy_app_inv in Hf. destruct Hf as (u1 & u2 & k1 & k2 & -> & -> & H1 & H2).
    apply path_app_inv in Hp. destruct Hp as (m & Hp1 & Hp2). exists k1, k2, m. split; [exact Hk|].
    split; [exists u1, k1|exists u2, k2]; auto.
  - intros (g & h & m & Hgh & (u1 & k1 & Hk1 & H1 & P1) & (u2 & k2 & Hk2 & H2 & P2)).
    exists (u1 ++ u2), (k1 + k2). split; [lia|]. split; [apply fuzzy_app; auto|eapply path_app'; eauto].
Qed.
Lemma hits_mono ex s x f g t : f <= g -> hits ex s x f t -> hits ex s x g t.
Proof. intros H (u & k & Hk & HH). exists u, k. split; [lia|exact HH]. Qed.
Lemma hits_lt ex : good ex -> forall s x f t, s < length (states ex) -> hits ex s x f t -> t < length (states ex).
Proof. intros Hg s x f t Hs (u & k & _ & _ & Hp). eapply path_lt; eauto. Qed.

(** ** One word *)
Definition wm_base (ex : expression) (sgl : bool) (maxlen : nat) (m : word_matcher) : Prop :=
  pm_ex (wm_pm m) = ex /\ fuzz_limit (wm_pm m) = fuzz ex + 1 /\ states_len (wm_pm m) = length (states ex) /\
  start_states (wm_pm m) = epsilon_states ex 0 /\
  length (tabs m) = maxlen /\ shaped ex (tabs m) /\
  (table_chars m = [] \/ cached ex sgl (tabs m) (table_chars m)) /\ survives ex sgl (table_chars m) = true.

Lemma find_table_spec T l : forall i, match find_table T l i with
  | Some k => i <= k /\ exists c, nth_error l (k - i) = Some c /\ c_table c = T
  | None => forall c, In c l -> c_table c <> T
  end.
Proof.
  assert (HE : forall x y, row_eqb x y = true <-> x = y).
  { induction x as [|a x IH]; intros [|b y]; cbn; split; intros H; try discriminate; auto.
    - apply andb_true_iff in H. destruct H as [H1 H2]. apply N.eqb_eq in H1. apply IH in H2. congruence.
    - injection H as -> ->. rewrite N.eqb_refl. cbn. apply IH. reflexivity. }
  assert (HT : forall x y, table_eqb x y = true <-> x = y).
  { induction x as [|a x IH]; intros [|b y]; cbn; split; intros H; try discriminate; auto.
    - apply andb_true_iff in H. destruct H as [H1 H2]. apply HE in H1. apply IH in H2. congruence.
    - injection H as -> ->. apply andb_true_iff. split; [apply HE|apply IH]; reflexivity. }
  induction l as [|c l IH]; intros i; cbn [find_table]; [cbn; tauto|].
  destruct (table_eqb (c_table c) T) eqn:E.
  - apply HT in E. split; [lia|]. exists c. rewrite Nat.sub_diag. auto.
  - specialize (IH (S i)). destruct (find_table T l (S i)) as [k|].
    + destruct IH as [Hk (c' & Hc & HT')]. split; [lia|]. exists c'. replace (k - i) with (S (k - S i)) by lia. auto.
    + intros c' [<-|Hin]; [|auto]. intros Heq. apply HT in Heq. congruence.
Qed.
Lemma row_eqb_eq x y : row_eqb x y = true <-> x = y.
Proof.
  revert y. induction x as [|a x IH]; intros [|b y]; cbn; split; intros H; try discriminate; auto.
  - apply andb_true_iff in H. destruct H as [H1 H2]. apply N.eqb_eq in H1. apply IH in H2. congruence.
  - injection H as -> ->. rewrite N.eqb_refl. cbn. apply IH. reflexivity.
Qed.

Lemma insert_word_table_ok pm w T : exists pm', insert_word_table pm w T = Ok pm' /\
  pm_ex pm' = pm_ex pm /\ fuzz_limit pm' = fuzz_limit pm /\ states_len pm' = states_len pm /\ start_states pm' = start_states pm.
Proof.
  unfold insert_word_table. pose proof (find_table_spec T (classes pm) 0) as H.
  destruct (find_table T (classes pm) 0) as [k|].
  - destruct H as [_ (c & Hc & _)]. rewrite Nat.sub_0_r in Hc. unfold class_add, index. rewrite Hc. cbn [bind]. eexists. split; [reflexivity|]. auto.
  - eexists. split; [reflexivity|]. auto.
Qed.

Lemma has_state_cum limit r s : has_state limit r s = true <-> exists f, f < limit /\ mem (nth f r 0%N) s = true.
Proof.
  unfold has_state. rewrite existsb_exists. split.
  - intros (f & Hin & Hm). apply in_seq in Hin. exists f. split; [lia|exact Hm].
  - intros (f & Hf & Hm). exists f. split; [apply in_seq; lia|exact Hm].
Qed.
Lemma has_state_cum' limit r s : length r = limit -> 0 < limit -> (has_state limit r s = true <-> cum r (limit - 1) s).
Proof.
  intros Hl Hp. rewrite has_state_cum. split.
  - intros (f & Hf & Hm). exists f, (nth f r 0%N). repeat split; [lia| |exact Hm]. apply nth_error_nth'. lia.
  - intros (f & x & Hf & Hn & Hm). exists f. split; [lia|]. rewrite (nth_error_nth _ _ 0%N Hn). exact Hm.
Qed.

Lemma initial_table_word pm : fuzz_limit pm = fuzz (pm_ex pm) + 1 -> states_len pm = length (states (pm_ex pm)) ->
  initial_table pm = word_table (pm_ex pm) [].
Proof.
  intros Hf Hn. unfold initial_table, word_table. rewrite Hn, Hf. apply map_ext. intros s.
  unfold word_row, row_run, init_row. cbn [fold_left]. do 2 f_equal. lia.
Qed.

(** The rows of a word decide whether it matches. *)
Lemma accepts_hits ex w : accepts_text ex w <-> hits ex 0 (visible ex w) (fuzz ex) (length (states ex) - 1).
Proof. reflexivity. Qed.
Lemma agrees_row0 ex sgl T w : good ex -> agrees ex sgl T w -> nth_error T 0 = Some (word_row ex 0 w).
Proof.
  intros [[Hne _] _] [Hl Ha]. assert (Hn : 0 < n_start_states ex sgl) by (unfold n_start_states; destruct sgl; lia).
  assert (H : nth_error (firstn (n_start_states ex sgl) T) 0 = nth_error (firstn (n_start_states ex sgl) (word_table ex w)) 0) by (rewrite Ha; reflexivity).
  rewrite !nth_error_firstn' in H. replace (0 <? n_start_states ex sgl) with true in H by (symmetry; apply Nat.ltb_lt; lia).
  rewrite H. apply word_table_nth. lia.
Qed.
Lemma not_survives ex sgl : good ex -> forall w, survives ex sgl w = false -> exists p c r, w = p ++ c :: r /\ dead ex sgl p.
Proof.
  intros Hg w. induction w as [|c w IH] using rev_ind; [discriminate|]. rewrite survives_snoc. intros H.
  apply andb_false_iff in H. destruct H as [H|H].
  - destruct (IH H) as (p & d & r & -> & Hd). exists p, d, (r ++ [c]). rewrite <- app_assoc. auto.
  - apply orb_false_iff in H. destruct H as [_ H]. apply negb_false_iff in H. apply deadb_dead in H. exists w, c, []. auto.
Qed.
Lemma dead_not_accepted ex sgl w : good ex -> survives ex sgl w = false -> ~ accepts_text ex w.
Proof.
  intros Hg Hs Ha. destruct (not_survives ex sgl Hg w Hs) as (p & c & r & -> & Hd).
  rewrite accepts_hits in Ha. rewrite visible_app in Ha. apply hits_app in Ha. destruct Ha as (g & h & m & Hgh & H1 & _).
  assert (0 < length (states ex)) by exact (proj1 (proj1 Hg)).
  apply (dead_spec ex sgl p 0 Hg Hd) with (f := g) (t := m); auto; [unfold n_start_states; destruct sgl; lia|lia].
Qed.

Lemma process_word_spec ex sgl maxlen m w : good ex -> wm_base ex sgl maxlen m -> length (w_chars w) < maxlen ->
  exists m' b, process_word sgl m w = Ok (m', b) /\ wm_base ex sgl maxlen m' /\ word_index m' = S (word_index m) /\
    (if survives ex sgl (w_chars w)
     then alive m' = alive m ++ [w] /\ exists T, agrees ex sgl T (w_chars w) /\ insert_word_table (wm_pm m) w T = Ok (wm_pm m')
     else alive m' = alive m /\ wm_pm m' = wm_pm m) /\
    (b = true <-> accepts_text ex (w_chars w)).
Proof.
  intros Hg (He & Hfl & Hsl & Hst & Hlen & Hsh & Hca & Hsv) Hw. unfold process_word.
  set (cs := w_chars w) in *. destruct (common_prefix_spec cs (table_chars m)) as (Hk1 & Hk2 & Hk3).
  set (k := common_prefix cs (table_chars m)) in *. cbn zeta.
  (* the tables after the initialisation *)
  assert (exists ts1, (if k =? 0 then do _ <- index (tabs m) 0; Ok (upd (tabs m) 0 (initial_table (wm_pm m))) else Ok (tabs m)) = Ok ts1 /\
    length ts1 = maxlen /\ shaped ex ts1 /\ cached ex sgl ts1 (firstn k cs) /\ survives ex sgl (firstn k cs) = true) as (ts1 & E1 & Hl1 & Hsh1 & Hca1 & Hsv1).
  { destruct (Nat.eqb_spec k 0) as [Hk|Hk].
    - unfold index. destruct (nth_error (tabs m) 0) as [T0|] eqn:E0; [|apply nth_error_None in E0; lia]. cbn [bind].
      assert (HT : initial_table (wm_pm m) = word_table ex []) by (rewrite initial_table_word by congruence; rewrite He; reflexivity).
      rewrite HT. eexists. split; [reflexivity|]. rewrite upd_length, Hk. repeat split; auto.
      + apply shaped_upd; [exact Hsh|apply word_table_length].
      + intros j Hj. cbn in Hj. replace j with 0 by lia. rewrite nth_error_upd. cbn [Nat.eqb].
        replace (0 <? length (tabs m)) with true by (symmetry; apply Nat.ltb_lt; lia). exists (word_table ex []).
        split; [reflexivity|]. split; [apply word_table_length|reflexivity].
    - exists (tabs m). repeat split; auto.
      + destruct Hca as [Hca|Hca]; [rewrite Hca in Hk2; cbn in Hk2; lia|]. rewrite Hk3. intros j Hj.
        rewrite firstn_length in Hj. rewrite firstn_firstn. replace (Nat.min j k) with j by lia. apply Hca. lia.
      + rewrite Hk3. rewrite <- (firstn_skipn k (table_chars m)) in Hsv. eapply survives_app; exact Hsv. }
  rewrite E1. cbn [bind]. rewrite He.
  assert (Hlk : length (firstn k cs) = k) by (rewrite firstn_length; lia).
  destruct (fill_table_spec ex sgl (skipn k cs) (firstn k cs) ts1 Hsh1 Hca1 Hsv1) as (ts2 & n & E2 & Hn & Hl2 & Hsh2 & Hca2 & Hsv2 & Hd).
  { rewrite Hlk, skipn_length, Hl1. lia. }
  rewrite Hlk in E2. rewrite E2. cbn [bind].
  assert (Hpre : firstn k cs ++ firstn n (skipn k cs) = firstn (k + n) cs).
  { rewrite <- (firstn_skipn k cs) at 3. rewrite firstn_app, Hlk. rewrite firstn_firstn.
    replace (Nat.min (k + n) k) with k by lia. do 2 f_equal. lia. }
  rewrite skipn_length in Hn. rewrite Hpre in Hca2, Hsv2, Hd. rewrite firstn_skipn, skipn_length in Hd.
  destruct (Nat.ltb_spec (k + n) (length cs)) as [Hlt|Hge].
  - destruct (Hd ltac:(lia)) as [Hd1 Hd2]. rewrite Hd2. eexists. eexists. split; [reflexivity|]. repeat split; cbn; auto; try congruence.
    intros Ha. exfalso. exact (dead_not_accepted ex sgl cs Hg Hd2 Ha).
  - assert (Hall : firstn (k + n) cs = cs) by (apply firstn_all2; lia). rewrite Hall in *.
    rewrite Hsv2. destruct (Hca2 (length cs) (le_n _)) as (T & HT & Hag). rewrite firstn_all in Hag.
    unfold index. rewrite HT. cbn [bind]. destruct (insert_word_table_ok (wm_pm m) w T) as (pm' & E3 & P1 & P2 & P3 & P4).
    rewrite E3. cbn [bind]. rewrite (agrees_row0 ex sgl T cs Hg Hag). cbn [bind].
    eexists. eexists. split; [reflexivity|]. cbn [wm_pm alive word_index].
    split; [|split; [reflexivity|split; [split; [reflexivity|exists T; auto]|]]].
    + repeat split; cbn [wm_pm tabs table_chars]; auto; try congruence.
    + rewrite Hfl, Hsl. rewrite has_state_cum' by (rewrite ?word_row_length; lia).
      replace (fuzz ex + 1 - 1) with (fuzz ex) by lia. rewrite word_row_spec; auto; [reflexivity|]. exact (proj1 (proj1 Hg)).
Qed.
