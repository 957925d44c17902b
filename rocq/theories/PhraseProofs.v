(** Stepping through phrases. *)
From Verif Require Export WordPhase.

(** ** The step on rows *)
Lemma fold_or {X} (F : row -> X -> row) (b : X -> bool) (limit g t : nat) (l : list X) :
  (forall r x, In x l -> length r = limit -> length (F r x) = limit /\
     mem (nth g (F r x) 0%N) t = mem (nth g r 0%N) t || b x) ->
  forall r, length r = limit -> length (fold_left F l r) = limit /\
    mem (nth g (fold_left F l r) 0%N) t = mem (nth g r 0%N) t || existsb b l.
Proof.
  induction l as [|x l IH]; intros HF r Hr; cbn [fold_left existsb].
  - rewrite orb_false_r. auto.
  - destruct (HF r x (or_introl eq_refl) Hr) as [H1 H2].
    destruct (IH (fun r' y Hy => HF r' y (or_intror Hy)) (F r x) H1) as [H3 H4].
    split; [exact H3|]. rewrite H4, H2, orb_assoc. reflexivity.
Qed.

Lemma nth_upd {A} (l : list A) i j a d : nth j (upd l i a) d = if (i =? j) && (j <? length l) then a else nth j l d.
Proof.
  revert i j. induction l as [|x l IH]; intros [|i] [|j]; cbn; try reflexivity.
  - rewrite andb_false_r. reflexivity.
  - rewrite IH. reflexivity.
Qed.

Definition step_bool (limit : nat) (T : table) (prev : row) (g t : nat) : bool :=
  existsb (fun f => existsb (fun dst => existsb (fun df => (f + df =? g) && mem (cell T dst df) t) (seq 0 (limit - f)))
                     (ones (nth f prev 0%N))) (seq 0 limit).
Lemma step_mem limit T prev nxt g t : length nxt = limit -> g < limit ->
  length (step limit T prev nxt) = limit /\
  mem (nth g (step limit T prev nxt) 0%N) t = mem (nth g nxt 0%N) t || step_bool limit T prev g t.
Proof.
  intros Hl Hg. unfold step, step_bool. apply fold_or; [|exact Hl].
  intros r f Hf Hr. apply fold_or; [|exact Hr].
  intros r2 dst Hdst Hr2. apply fold_or; [|exact Hr2].
  intros r3 df Hdf Hr3. split; [rewrite upd_length; exact Hr3|].
  rewrite nth_upd, Hr3. destruct (Nat.eqb_spec (f + df) g) as [<-|Hne]; cbn [andb].
  - replace (f + df <? limit) with true by (symmetry; apply Nat.ltb_lt; lia). apply mem_lor.
  - rewrite orb_false_r. reflexivity.
Qed.
Lemma step_bool_spec limit T prev g t : g < limit -> (step_bool limit T prev g t = true <->
  exists f df s, f + df = g /\ mem (nth f prev 0%N) s = true /\ mem (cell T s df) t = true).
Proof.
  intros Hg. unfold step_bool. rewrite existsb_exists. split.
  - intros (f & Hf & H). apply existsb_exists in H. destruct H as (s & Hs & H). apply existsb_exists in H.
    destruct H as (df & Hdf & H). apply andb_true_iff in H. destruct H as [H1 H2]. apply Nat.eqb_eq in H1.
    apply in_ones in Hs. eauto 8.
  - intros (f & df & s & Hfd & Hs & Ht). exists f. split; [apply in_seq; lia|]. apply existsb_exists. exists s.
    split; [apply in_ones; exact Hs|]. apply existsb_exists. exists df. split; [apply in_seq; lia|].
    apply andb_true_iff. split; [apply Nat.eqb_eq; exact Hfd|exact Ht].
Qed.
Lemma nth_zero_row limit g : nth g (zero_row limit) 0%N = 0%N.
Proof. unfold zero_row. revert g. induction limit; intros [|g]; cbn; auto. Qed.
Lemma zero_row_length limit : length (zero_row limit) = limit. Proof. apply repeat_length. Qed.
Lemma start_row_length limit s : length (start_row limit s) = limit.
Proof. unfold start_row. rewrite upd_length. apply zero_row_length. Qed.
Lemma nth_start_row limit s g : 0 < limit -> nth g (start_row limit s) 0%N = if g =? 0 then s else 0%N.
Proof.
  intros H. unfold start_row. rewrite nth_upd, zero_row_length. destruct g; cbn [Nat.eqb andb].
  - replace (0 <? limit) with true by (symmetry; apply Nat.ltb_lt; lia). reflexivity.
  - apply nth_zero_row.
Qed.

(** ** Walks *)
(** [walk Ts s f t]: the words with tables [Ts] lead from state [s] to [t] with fuzz [f]. *)
Inductive walk : list table -> nat -> nat -> nat -> Prop :=
| walk_nil s : walk [] s 0 s
| walk_cons T Ts s df m f t : mem (cell T s df) m = true -> walk Ts m f t -> walk (T :: Ts) s (df + f) t.

Definition run (limit : nat) (Ts : list table) (r : row) : row :=
  fold_left (fun r T => step limit T r (zero_row limit)) Ts r.

Lemma run_length limit Ts : forall r, length r = limit -> length (run limit Ts r) = limit.
Proof.
  induction Ts as [|T Ts IH]; intros r Hr; [exact Hr|]. cbn [run fold_left]. apply IH.
  destruct limit as [|l]; [cbn; reflexivity|]. apply (step_mem (S l) T r (zero_row (S l)) 0 0); [apply zero_row_length|lia].
Qed.
Lemma run_spec limit Ts : forall r g t, length r = limit -> g < limit ->
  (mem (nth g (run limit Ts r) 0%N) t = true <->
   exists f h s, f + h = g /\ mem (nth f r 0%N) s = true /\ walk Ts s h t).
Proof.
  induction Ts as [|T Ts IH]; intros r g t Hr Hg; cbn [run fold_left].
  - split.
    + intros H. exists g, 0, t. repeat split; [lia|exact H|constructor].
    + intros (f & h & s & Hfh & Hs & Hw). inversion Hw; subst. rewrite Nat.add_0_r. exact Hs.
  - change (mem (nth g (run limit Ts (step limit T r (zero_row limit))) 0%N) t = true <-> exists f h s, f + h = g /\ mem (nth f r 0%N) s = true /\ walk (T :: Ts) s h t).
    rewrite IH; [|apply (step_mem limit T r (zero_row limit) g t); [apply zero_row_length|exact Hg]|exact Hg].
    assert (HS : forall f s, f < limit -> (mem (nth f (step limit T r (zero_row limit)) 0%N) s = true <->
       exists f0 df s0, f0 + df = f /\ mem (nth f0 r 0%N) s0 = true /\ mem (cell T s0 df) s = true)).
    { intros f s Hf. destruct (step_mem limit T r (zero_row limit) f s (zero_row_length _) Hf) as [_ ->].
      rewrite nth_zero_row, mem_0, orb_false_l. apply step_bool_spec. exact Hf. }
    split.
    + intros (f & h & s & Hfh & Hs & Hw). apply HS in Hs; [|lia]. destruct Hs as (f0 & df & s0 & Hf & Hs0 & Hc).
      exists f0, (df + h), s0. repeat split; [lia|exact Hs0|]. econstructor; eauto.
    + intros (f & h & s & Hfh & Hs & Hw). inversion Hw as [|T' Ts' s' df m f' t' Hc Hw' E1 E2 E3]; subst.
      exists (f + df), f', m. repeat split; [lia| |exact Hw']. apply HS; [lia|]. exists f, df, s. auto.
Qed.

Lemma walk_app Ts1 Ts2 s f t : walk (Ts1 ++ Ts2) s f t <->
  exists g h m, f = g + h /\ walk Ts1 s g m /\ walk Ts2 m h t.
Proof.
  revert s f. induction Ts1 as [|T Ts1 IH]; intros s f; cbn [app].
  - split.
    + intros H. exists 0, f, s. repeat split; auto. constructor.
    + intros (g & h & m & -> & H1 & H2). inversion H1; subst. exact H2.
  - split.
    + intros H. inversion H as [|T' Ts' s' df m f' t' Hc Hw E1 E2 E3]; subst. apply IH in Hw.
      destruct Hw as (g & h & m' & -> & H1 & H2). exists (df + g), h, m'. repeat split; [lia| |exact H2]. econstructor; eauto.
    + intros (g & h & m & -> & H1 & H2). inversion H1 as [|T' Ts' s' df m' f' t' Hc Hw E1 E2 E3]; subst.
      rewrite <- Nat.add_assoc. econstructor; [exact Hc|]. apply IH. eauto 8.
Qed.

(** Acceptance of a sequence of tables from a set of start states. *)
Definition pacc (limit n : nat) (start : N) (Ts : list table) : Prop :=
  exists s h, mem start s = true /\ h < limit /\ walk Ts s h (n - 1).

Lemma run_accepts limit n start Ts : 0 < limit ->
  (has_state limit (run limit Ts (start_row limit start)) (n - 1) = true <-> pacc limit n start Ts).
Proof.
  intros Hl. rewrite has_state_cum. split.
  - intros (f & Hf & Hm). apply run_spec in Hm; [|apply start_row_length|exact Hf].
    destruct Hm as (f0 & h & s & Hfh & Hs & Hw). rewrite nth_start_row in Hs by exact Hl.
    destruct f0; cbn [Nat.eqb] in Hs; [|rewrite mem_0 in Hs; discriminate]. exists s, h. repeat split; auto. lia.
  - intros (s & h & Hs & Hh & Hw). exists h. split; [exact Hh|]. apply run_spec; [apply start_row_length|exact Hh|].
    exists 0, h, s. repeat split; auto. rewrite nth_start_row by exact Hl. exact Hs.
Qed.
(** A row that becomes empty has no extension. *)
Lemma run_app limit Ts1 Ts2 r : run limit (Ts1 ++ Ts2) r = run limit Ts2 (run limit Ts1 r).
Proof. unfold run. apply fold_left_app. Qed.
Lemma run_empty limit Ts : forall r, length r = limit -> empty_row r = true -> empty_row (run limit Ts r) = true.
Proof.
  intros r Hl He. unfold empty_row. apply forallb_forall. intros x Hx. apply N.eqb_eq. apply mem_eq_0. intros t.
  destruct (mem x t) eqn:Hm; [|reflexivity]. exfalso. apply In_nth_error in Hx. destruct Hx as (g & Hg).
  assert (Hgl : g < limit). { rewrite <- (run_length limit Ts r Hl). apply nth_error_Some. congruence. }
  assert (Hm' : mem (nth g (run limit Ts r) 0%N) t = true) by (rewrite (nth_error_nth _ _ 0%N Hg); exact Hm).
  apply run_spec in Hm'; auto. destruct Hm' as (f & h & s & Hfh & Hs & _).
  assert (Hfl : f < length r) by lia. destruct (nth_some _ _ Hfl) as [y Hy]. rewrite (nth_error_nth _ _ 0%N Hy) in Hs.
  unfold empty_row in He. rewrite forallb_forall in He. apply nth_error_In in Hy. apply He in Hy. apply N.eqb_eq in Hy. subst y.
  rewrite mem_0 in Hs. discriminate.
Qed.

(** ** Word tables *)
Lemma word_cell ex w s f : s < length (states ex) -> cell (word_table ex w) s f = nth f (word_row ex s w) 0%N.
Proof.
  intros Hs. unfold cell. f_equal. apply nth_error_nth. apply word_table_nth. exact Hs.
Qed.
Lemma word_cell_0 ex w s f : length (states ex) <= s -> cell (word_table ex w) s f = 0%N.
Proof.
  intros Hs. unfold cell. rewrite (nth_overflow (word_table ex w)) by (rewrite word_table_length; exact Hs). destruct f; reflexivity.
Qed.
Lemma cell_hits ex : good ex -> forall w s F t, s < length (states ex) -> F <= fuzz ex ->
  ((exists f, f <= F /\ mem (cell (word_table ex w) s f) t = true) <-> hits ex s (visible ex w) F t).
Proof.
  intros Hg w s F t Hs HF. rewrite <- (word_row_spec ex Hg w s Hs F t HF). split.
  - intros (f & Hf & Hm). rewrite word_cell in Hm by exact Hs. exists f, (nth f (word_row ex s w) 0%N). repeat split; auto.
    apply nth_error_nth'. rewrite word_row_length. lia.
  - intros (f & x & Hf & Hn & Hm). exists f. split; [exact Hf|]. rewrite word_cell by exact Hs. rewrite (nth_error_nth _ _ 0%N Hn). exact Hm.
Qed.

Lemma walk_hits ex : good ex -> forall ws s F t, s < length (states ex) -> F <= fuzz ex -> ws <> [] ->
  ((exists f, f <= F /\ walk (map (word_table ex) ws) s f t) <-> hits ex s (visible ex (concat ws)) F t).
Proof.
  intros Hg ws. induction ws as [|w ws IH]; intros s F t Hs HF Hne; [congruence|]. clear Hne.
  cbn [map concat]. rewrite visible_app, hits_app. split.
  - intros (f & Hf & Hw). inversion Hw as [|T' Ts' s' df m f' t' Hc Hw' E1 E2 E3]; subst.
    assert (H1 : hits ex s (visible ex w) df m) by (apply (cell_hits ex Hg); [exact Hs|lia|eauto]).
    exists df, f', m. split; [exact Hf|]. split; [exact H1|].
    assert (Hm : m < length (states ex)) by (eapply hits_lt; eauto).
    destruct ws as [|w2 ws].
    + cbn [map] in Hw'. inversion Hw'; subst. exists [], 0. repeat split; auto. constructor. constructor.
    + apply (IH m f' t Hm); [lia|discriminate|]. exists f'. auto.
  - intros (g & h & m & Hgh & H1 & H2). assert (Hm : m < length (states ex)) by (eapply hits_lt; eauto).
    destruct ws as [|w2 ws].
    + assert (Ht : hits ex s (visible ex w) g t).
      { destruct H2 as (u & k & Hk & Hf & Hp). cbn in Hf. inversion Hf; subst. destruct H1 as (u1 & k1 & Hk1 & Hf1 & Hp1).
        exists u1, k1. repeat split; auto. rewrite <- (app_nil_r u1). eapply path_app'; eauto. }
      apply (cell_hits ex Hg) in Ht; [|exact Hs|lia]. destruct Ht as (f & Hf & Hc). exists (f + 0). split; [lia|].
      econstructor; [exact Hc|]. constructor.
    + apply (cell_hits ex Hg) in H1; [|exact Hs|lia]. destruct H1 as (f & Hf & Hc).
      apply (IH m h t Hm) in H2; [|lia|discriminate]. destruct H2 as (f' & Hf' & Hw).
      exists (f + f'). split; [lia|]. econstructor; eauto.
Qed.

(** Phrases of words on the tables of an expression. *)
Lemma pacc_text ex : good ex -> forall ws, ws <> [] ->
  (pacc (fuzz ex + 1) (length (states ex)) (epsilon_states ex 0) (map (word_table ex) ws) <-> accepts_text ex (concat ws)).
Proof.
  intros Hg ws Hne. assert (H0 : 0 < length (states ex)) by exact (proj1 (proj1 Hg)). rewrite accepts_hits. split.
  - intros (s & h & Hs & Hh & Hw). apply (epsilon_states_spec ex Hg 0 s H0) in Hs.
    assert (Hsl : s < length (states ex)) by (eapply path_lt; eauto).
    assert (HH : hits ex s (visible ex (concat ws)) (fuzz ex) (length (states ex) - 1)).
    { apply (walk_hits ex Hg ws s); auto. exists h. split; [lia|exact Hw]. }
    destruct HH as (u & k & Hk & Hf & Hp). exists u, k. repeat split; auto.
    change u with (@nil char ++ u). eapply path_app'; eauto.
  - intros H. apply (walk_hits ex Hg ws 0) in H; auto. destruct H as (f & Hf & Hw). exists 0, f. repeat split; [|lia|exact Hw].
    apply (epsilon_states_spec ex Hg 0 0 H0). constructor.
Qed.

(** State 0 dominates the start states. *)
Lemma start_dominated ex : good ex -> forall w s f d, mem (epsilon_states ex 0) s = true -> f <= fuzz ex ->
  mem (cell (word_table ex w) s f) d = true ->
  exists g, g <= f /\ mem (cell (word_table ex w) 0 g) d = true.
Proof.
  intros Hg w s f d Hs Hf Hd. assert (H0 : 0 < length (states ex)) by exact (proj1 (proj1 Hg)).
  apply (epsilon_states_spec ex Hg 0 s H0) in Hs. assert (Hsl : s < length (states ex)) by (eapply path_lt; eauto).
  assert (HH : hits ex s (visible ex w) f d) by (apply (cell_hits ex Hg); eauto).
  apply (cell_hits ex Hg w 0 f d H0 Hf). destruct HH as (u & k & Hk & Hfz & Hp). exists u, k. repeat split; auto.
  change u with (@nil char ++ u). eapply path_app'; eauto.
Qed.
(** Cells have states only. *)
Lemma word_cell_lt ex : good ex -> forall w s f d, f <= fuzz ex -> mem (cell (word_table ex w) s f) d = true ->
  s < length (states ex) /\ d < length (states ex).
Proof.
  intros Hg w s f d Hf Hm. destruct (le_lt_dec (length (states ex)) s) as [Hs|Hs].
  - rewrite word_cell_0 in Hm by exact Hs. rewrite mem_0 in Hm. discriminate.
  - split; [exact Hs|]. eapply hits_lt; [exact Hg|exact Hs|]. apply (cell_hits ex Hg w s f d Hs Hf). eauto.
Qed.

(** A word that does not survive is in no accepted phrase (all start states considered). *)
Lemma dead_word_useless ex : good ex -> forall a w b, survives ex false w = false -> ~ accepts_text ex (a ++ w ++ b).
Proof.
  intros Hg a w b Hs Ha. destruct (not_survives ex false Hg w Hs) as (p & c & r & -> & Hd).
  rewrite accepts_hits, !visible_app in Ha. apply hits_app in Ha. destruct Ha as (g & h & m & Hgh & H1 & H2).
  rewrite <- app_assoc in H2. apply hits_app in H2. destruct H2 as (g2 & h2 & m2 & Hgh2 & H3 & _).
  assert (H0 : 0 < length (states ex)) by exact (proj1 (proj1 Hg)).
  assert (Hm : m < length (states ex)) by (eapply hits_lt; eauto).
  apply (dead_spec ex false p m Hg Hd) with (f := g2) (t := m2); auto. lia.
Qed.
