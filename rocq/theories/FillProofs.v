(** The transition tables against the specification of fuzzy matching. *)
From Verif Require Export Fuzzy Fill CompiledProofs WordsProofs.

(** ** The edit relation *)
Lemma fuzzy_app w1 u1 k1 w2 u2 k2 : fuzzy w1 u1 k1 -> fuzzy w2 u2 k2 ->
  fuzzy (w1 ++ w2) (u1 ++ u2) (k1 + k2).
Proof. induction 1; intros H2; cbn; [exact H2|apply fuzzy_keep|apply fuzzy_delete|apply fuzzy_change|apply fuzzy_insert]; auto. Qed.
Lemma fuzzy_app_inv w1 w2 u k : fuzzy (w1 ++ w2) u k ->
  exists u1 u2 k1 k2, u = u1 ++ u2 /\ k = k1 + k2 /\ fuzzy w1 u1 k1 /\ fuzzy w2 u2 k2.
Proof.
  revert u k. induction w1 as [|c w1 IH]; intros u k H; cbn [app] in H.
  - exists [], u, 0, k. repeat split; auto. constructor.
  - remember (c :: w1 ++ w2) as w eqn:Hw. destruct H as [|c' w u k H|c' w u k H|c' l w u k Hl H|c' l w u k Hl H];
      try discriminate; injection Hw as -> ->; apply IH in H; destruct H as (u1 & u2 & k1 & k2 & -> & -> & H1 & H2).
    + exists (c :: u1), u2, k1, k2. repeat split; auto. constructor; auto.
    + exists u1, u2, (S k1), k2. repeat split; auto. constructor; auto.
    + exists (l :: u1), u2, (S k1), k2. repeat split; auto. apply fuzzy_change; auto.
    + exists (l :: c :: u1), u2, (S k1), k2. repeat split; auto. apply fuzzy_insert; auto.
Qed.
Lemma fuzzy_refl w : fuzzy w w 0. Proof. induction w; [constructor|apply fuzzy_keep; auto]. Qed.
Lemma fuzzy_0 w u : fuzzy w u 0 -> u = w.
Proof. revert u. induction w as [|c w IH]; intros u H; inversion H; subst; auto. f_equal; auto. Qed.

(** ** Character steps *)
Lemma fold_acc (ex : expression) cs start l a t :
  mem (fold_left (fun acc p => let '(si, x) := p in
         if negb (mem start si) then acc
         else if is_intersecting cs (chars x) then N.lor acc (epsilon_states ex (next x)) else acc) l a) t
  = mem a t || existsb (fun p => mem start (fst p) && is_intersecting cs (chars (snd p))
                                 && mem (epsilon_states ex (next (snd p))) t) l.
Proof.
  revert a. induction l as [|[i x] l IH]; intros a; cbn [fold_left existsb fst snd].
  - rewrite orb_false_r. reflexivity.
  - rewrite IH. destruct (mem start i); cbn [negb andb orb]; [|reflexivity].
    destruct (is_intersecting cs (chars x)); cbn [andb orb]; [|reflexivity].
    rewrite mem_lor, orb_assoc. reflexivity.
Qed.
Lemma char_transitions_spec ex cs start t : mem (char_transitions ex cs start) t = true <->
  exists j x, nth_error (states ex) j = Some x /\ mem start j = true /\
    (exists c, mem cs c = true /\ cs_contains (chars x) c = true) /\
    mem (epsilon_states ex (next x)) t = true.
Proof.
  unfold char_transitions. destruct (N.eqb_spec start 0) as [->|Hs].
  - rewrite mem_0. split; [discriminate|]. intros (j & x & _ & H & _). rewrite mem_0 in H. discriminate.
  - rewrite fold_acc, mem_0, orb_false_l, existsb_exists. split.
    + intros ([j x] & Hin & H). apply in_combine_seq in Hin. rewrite Nat.sub_0_r in Hin. destruct Hin as [_ Hx].
      cbn [fst snd] in H. apply andb_true_iff in H. destruct H as [H Ht]. apply andb_true_iff in H. destruct H as [Hj Hc].
      apply is_intersecting_spec in Hc. destruct Hc as (c & Hc1 & Hc2). exists j, x. repeat split; auto.
      exists c. rewrite cs_contains_mem. auto.
    + intros (j & x & Hx & Hj & (c & Hc1 & Hc2) & Ht). exists (j, x). split.
      * apply in_combine_seq. rewrite Nat.sub_0_r. split; [lia|exact Hx].
      * cbn [fst snd]. rewrite cs_contains_mem in Hc2. rewrite Hj, Ht, andb_true_r. cbn [andb].
        apply is_intersecting_spec. exists c. auto.
Qed.
Lemma char_transitions_0 ex cs : char_transitions ex cs 0%N = 0%N.
Proof. reflexivity. Qed.

Definition good (ex : expression) : Prop := ranged (states ex) /\ closed (states ex).
Definition P (ex : expression) := path (edge 0 (states ex)).

Lemma mem_charset_of c d : mem (charset_of c) d = (c =? d).
Proof.
  unfold charset_of, mem. rewrite N.shiftl_1_l, N.pow2_bits_eqb.
  destruct (Nat.eqb_spec c d) as [->|]; [apply N.eqb_refl|]. apply N.eqb_neq. lia.
Qed.
Lemma mem_letters c : mem LETTERS c = true <-> c < 26.
Proof.
  unfold mem. replace LETTERS with (N.ones 26) by reflexivity.
  destruct (N.lt_ge_cases (N.of_nat c) 26).
  - rewrite N.ones_spec_low by assumption. split; [lia|auto].
  - rewrite N.ones_spec_high by assumption. split; [discriminate|lia].
Qed.

(** Sets of states as predicates; a set is [eps_closed] if it contains what it reaches. *)
Definition eps_closed (ex : expression) (s : N) : Prop :=
  forall i j, mem s i = true -> P ex i [] j -> mem s j = true.
Lemma epsilon_states_spec ex : good ex -> forall s t, s < length (states ex) ->
  (mem (epsilon_states ex s) t = true <-> P ex s [] t).
Proof.
  intros [Hr Hc] s t Hs. unfold epsilon_states. destruct (nth_some _ _ Hs) as [x Hx]. rewrite Hx. apply (Hc _ _ _ Hx).
Qed.
Lemma edge_char_inv ex s c w t : P ex s (c :: w) t -> exists j x, P ex s [] j /\
  nth_error (states ex) j = Some x /\ cs_contains (chars x) c = true /\ P ex (next x) w t.
Proof.
  intros H. apply path_cons_inv in H. destruct H as (j & t' & H1 & H2 & H3).
  apply edge0 in H2. destruct H2 as (x & Hx & Hc & <-). exists j, x. auto.
Qed.
Lemma path_app' ex s w1 m w2 t : P ex s w1 m -> P ex m w2 t -> P ex s (w1 ++ w2) t.
Proof. unfold P. induction 1; intros; cbn [app]; [auto|eapply path_eps|eapply path_chr]; eauto. Qed.
Lemma path_app_inv ex w1 w2 s t : P ex s (w1 ++ w2) t -> exists m, P ex s w1 m /\ P ex m w2 t.
Proof.
  unfold P. revert s. induction w1 as [|c w1 IH]; intros s H; cbn [app] in H.
  - exists s. split; [constructor|exact H].
  - apply path_cons_inv in H. destruct H as (j & t' & H1 & H2 & H3). apply IH in H3. destruct H3 as (m & H3 & H4).
    exists m. split; [|exact H4]. eapply path_cons; eauto.
Qed.
Lemma path_lt ex : good ex -> forall s w t, P ex s w t -> s < length (states ex) -> t < length (states ex).
Proof.
  intros [Hr _] s w t H. unfold P in H. induction H; intros; auto; apply IHpath; eapply (ranged_range _ Hr); eauto.
Qed.

(** The successors of an epsilon-closed set under one symbol. *)
Lemma char_step ex : good ex -> forall cs S t, eps_closed ex S ->
  (mem (char_transitions ex cs S) t = true <->
   exists j c, mem S j = true /\ mem cs c = true /\ P ex j [c] t).
Proof.
  intros Hg cs S t HS. rewrite char_transitions_spec. split.
  - intros (j & x & Hx & Hj & (c & Hc1 & Hc2) & Ht). exists j, c. repeat split; auto.
    apply epsilon_states_spec in Ht; [|exact Hg|].
    + eapply path_cons; [constructor| |exact Ht]. apply edge0. eauto.
    + destruct Hg as [[_ Hr] _]. exact (proj1 (Hr _ _ Hx)).
  - intros (j & c & Hj & Hc & Hp). apply edge_char_inv in Hp. destruct Hp as (j' & x & Hj' & Hx & Hcc & Hp).
    exists j', x. repeat split; auto.
    + eapply HS; eauto.
    + eauto.
    + apply epsilon_states_spec; auto. destruct Hg as [[_ Hr] _]. exact (proj1 (Hr _ _ Hx)).
Qed.
Lemma char_step_closed ex : good ex -> forall cs S, eps_closed ex (char_transitions ex cs S).
Proof.
  intros Hg cs S i j Hi Hp. apply char_transitions_spec in Hi. destruct Hi as (k & x & Hx & Hk & Hc & Hi).
  apply char_transitions_spec. exists k, x. repeat split; auto.
  assert (Hn : next x < length (states ex)) by (destruct Hg as [[_ Hr] _]; exact (proj1 (Hr _ _ Hx))).
  apply epsilon_states_spec in Hi; auto. apply epsilon_states_spec; auto.
  change (@nil char) with (@nil char ++ []). eapply path_app'; eauto.
Qed.

(** ** Rows *)
(** [cum r f t]: state [t] is in the row [r] at fuzz [f] or less. *)
Definition cum (r : row) (f t : nat) : Prop := exists g s, g <= f /\ nth_error r g = Some s /\ mem s t = true.

Definition edits (ex : expression) (c : char) (s : N) : N :=
  N.lor (N.lor s (char_transitions ex LETTERS s)) (char_transitions ex (charset_of c) (char_transitions ex LETTERS s)).
Lemma edits_0 ex c : edits ex c 0%N = 0%N. Proof. reflexivity. Qed.

Lemma cum_nil f t : cum [] f t <-> False.
Proof. split; [|tauto]. intros (g & s & _ & H & _). destruct g; discriminate. Qed.
Lemma cum_0 s r t : cum (s :: r) 0 t <-> mem s t = true.
Proof.
  split.
  - intros (g & s' & Hg & Hn & Hm). replace g with 0 in Hn by lia. injection Hn as <-. exact Hm.
  - intros H. exists 0, s. auto.
Qed.
Lemma cum_S s r f t : cum (s :: r) (S f) t <-> mem s t = true \/ cum r f t.
Proof.
  split.
  - intros ([|g] & s' & Hg & Hn & Hm); cbn in Hn.
    + injection Hn as <-. auto.
    + right. exists g, s'. repeat split; auto. lia.
  - intros [H|(g & s' & Hg & Hn & Hm)].
    + exists 0, s. repeat split; auto. lia.
    + exists (S g), s'. repeat split; auto. lia.
Qed.
Lemma cum_mono r f g t : f <= g -> cum r f t -> cum r g t.
Proof. intros H (h & s & Hh & Hn & Hm). exists h, s. repeat split; auto. lia. Qed.

Lemma prop_aux (rec sup n2 n ed cn ce : Prop) :
  (rec \/ (sup \/ n2) <-> cn \/ ce \/ (sup \/ n2)) -> (n2 \/ sup <-> n \/ ed \/ sup) ->
  ((n2 \/ rec) \/ sup <-> (n \/ cn) \/ (ed \/ ce) \/ sup).
Proof.
  intros [I1 I2] [J1 J2]. split.
  - intros [[H|H]|H]; [| |auto].
    + destruct (J1 (or_introl H)) as [?|[?|?]]; auto.
    + destruct (I1 (or_introl H)) as [?|[?|[?|Hn]]]; auto. destruct (J1 (or_introl Hn)) as [?|[?|?]]; auto.
  - intros [[H|H]|[[H|H]|H]]; [| | | |auto].
    + destruct (J2 (or_introl H)); auto.
    + destruct (I2 (or_introl H)) as [?|[?|?]]; auto.
    + destruct (J2 (or_intror (or_introl H))); auto.
    + destruct (I2 (or_intror (or_introl H))) as [?|[?|?]]; auto.
Qed.
Lemma prop_aux2 (rec n2 n ce : Prop) :
  (rec \/ false = true <-> n2 \/ ce \/ false = true) ->
  (n \/ rec <-> (n \/ n2) \/ ce).
Proof. intuition discriminate. Qed.

Lemma fuzz_row_length ex c cur : forall nxt sup, length (fuzz_row ex c cur nxt sup) = length nxt.
Proof.
  induction cur as [|s cur IH]; intros [|n nxt] sup; cbn [fuzz_row]; try reflexivity.
  destruct (N.eqb s 0); cbn [length]; rewrite IH; reflexivity.
Qed.
Lemma fuzz_row_cum ex c : forall nxt cur sup f t, length nxt <= length cur ->
  (cum (fuzz_row ex c cur nxt sup) f t \/ mem sup t = true <->
   cum nxt f t \/ cum (firstn (length nxt) (map (edits ex c) cur)) f t \/ mem sup t = true).
Proof.
  induction nxt as [|n nxt IH]; intros cur sup f t Hl.
  - replace (fuzz_row ex c cur [] sup) with (@nil N) by (destruct cur; reflexivity). cbn [length firstn].
    rewrite !cum_nil. tauto.
  - destruct cur as [|s cur]; [cbn in Hl; lia|]. cbn [length] in Hl. cbn [fuzz_row map length firstn].
    destruct (N.eqb_spec s 0) as [->|Hs].
    + rewrite edits_0. destruct f as [|f].
      * rewrite !cum_0, mem_0. split; [tauto|]. intros [?|[?|?]]; auto; discriminate.
      * rewrite !cum_S, mem_0. specialize (IH cur sup f t ltac:(lia)). intuition discriminate.
    + set (n1 := N.lor _ _). set (n2 := N.ldiff n1 sup).
      assert (E1 : mem n1 t = mem n t || mem (edits ex c s) t).
      { unfold n1, edits. rewrite !mem_lor, !orb_assoc. reflexivity. }
      assert (E2 : mem n2 t = true \/ mem sup t = true <-> mem n t = true \/ mem (edits ex c s) t = true \/ mem sup t = true).
      { unfold n2. rewrite mem_ldiff, E1. destruct (mem n t), (mem (edits ex c s) t), (mem sup t); cbn; intuition discriminate. }
      destruct f as [|f].
      * rewrite !cum_0. exact E2.
      * rewrite !cum_S. specialize (IH cur (N.lor sup n2) f t ltac:(lia)). rewrite mem_lor, orb_true_iff in IH.
        eapply prop_aux; eassumption.
Qed.

Lemma nth_error_map' {A B} (f : A -> B) l i : nth_error (map f l) i = option_map f (nth_error l i).
Proof. revert i. induction l; intros [|i]; cbn; auto. Qed.
Lemma nth_error_firstn' {A} n (l : list A) i : nth_error (firstn n l) i = if i <? n then nth_error l i else None.
Proof.
  revert l i. induction n as [|n IH]; intros l i; cbn [firstn].
  - destruct i; reflexivity.
  - destruct l as [|x l]; [destruct (i <? S n), i; reflexivity|].
    destruct i; cbn [nth_error]; [reflexivity|]. rewrite IH. reflexivity.
Qed.
Lemma cum_map F (r : row) f t : cum (map F r) f t <-> exists g s, g <= f /\ nth_error r g = Some s /\ mem (F s) t = true.
Proof.
  unfold cum. split.
  - intros (g & s & Hg & Hn & Hm). rewrite nth_error_map' in Hn. destruct (nth_error r g) as [s'|] eqn:E; [|discriminate].
    injection Hn as <-. eauto.
  - intros (g & s & Hg & Hn & Hm). exists g, (F s). repeat split; auto. rewrite nth_error_map', Hn. reflexivity.
Qed.

Lemma step_row_length ex c cur : length (step_row ex c cur) = length cur.
Proof.
  unfold step_row. assert (H : length (direct_row ex c cur) = length cur) by apply map_length.
  destruct (forallb _ cur); [exact H|]. destruct (direct_row ex c cur) as [|d0 d] eqn:E; [exact H|].
  cbn [length] in *. rewrite fuzz_row_length. exact H.
Qed.
Lemma step_row_cum ex c cur f t : f < length cur ->
  (cum (step_row ex c cur) f t <->
   (exists g s, g <= f /\ nth_error cur g = Some s /\ mem (char_transitions ex (charset_of c) s) t = true) \/
   (exists g s, g < f /\ nth_error cur g = Some s /\ mem (edits ex c s) t = true)).
Proof.
  intros Hf. assert (HD : direct_row ex c cur = map (char_transitions ex (charset_of c)) cur).
  { apply map_ext. intros s. destruct (N.eqb_spec s 0) as [->|]; reflexivity. }
  unfold step_row. rewrite HD. destruct (forallb (fun s => N.eqb s 0) cur) eqn:Hz.
  - rewrite cum_map. split; [auto|]. intros [H|(g & s & Hg & Hn & Hm)]; [exact H|].
    rewrite forallb_forall in Hz. apply nth_error_In in Hn. apply Hz in Hn. apply N.eqb_eq in Hn. subst s.
    rewrite edits_0, mem_0 in Hm. discriminate.
  - rewrite <- (cum_map (char_transitions ex (charset_of c)) cur f t). destruct cur as [|s0 cur]; [cbn in Hf; lia|].
    cbn [map]. destruct f as [|f].
    + rewrite !cum_0. split; [auto|]. intros [H|(g & s & Hg & _)]; [exact H|lia].
    + rewrite !cum_S. cbn [length] in Hf.
      pose proof (fuzz_row_cum ex c (map (char_transitions ex (charset_of c)) cur) (s0 :: cur) 0%N f t) as HF.
      rewrite map_length, mem_0 in HF. specialize (HF ltac:(cbn; lia)).
      assert (HE : cum (firstn (length cur) (map (edits ex c) (s0 :: cur))) f t <->
        exists g s, g < S f /\ nth_error (s0 :: cur) g = Some s /\ mem (edits ex c s) t = true).
      { unfold cum. split.
        - intros (g & s & Hg & Hn & Hm). rewrite nth_error_firstn', nth_error_map' in Hn.
          destruct (g <? length cur); [|discriminate]. destruct (nth_error (s0 :: cur) g) as [s'|] eqn:E; [|discriminate].
          injection Hn as <-. exists g, s'. repeat split; auto. lia.
        - intros (g & s & Hg & Hn & Hm). exists g, (edits ex c s). repeat split; auto; [lia|].
          rewrite nth_error_firstn', nth_error_map', Hn. replace (g <? length cur) with true; [reflexivity|].
          symmetry. apply Nat.ltb_lt. lia. }
      rewrite HE in HF. eapply prop_aux2; eassumption.
Qed.

(** ** Runs *)
Definition next_row (ex : expression) (r : row) (c : char) : row := if ignored ex c then r else step_row ex c r.
Definition row_run (ex : expression) (r : row) (w : list char) : row := fold_left (next_row ex) w r.
Definition init_row (ex : expression) (s : nat) : row := epsilon_states ex s :: repeat 0%N (fuzz ex).
Definition word_row (ex : expression) (s : nat) (w : list char) : row := row_run ex (init_row ex s) w.

Definition hits (ex : expression) (s : nat) (w : list char) (f t : nat) : Prop :=
  exists u k, k <= f /\ fuzzy w u k /\ P ex s u t.

Lemma row_run_length ex w : forall r, length (row_run ex r w) = length r.
Proof.
  induction w as [|c w IH]; intros r; cbn [row_run fold_left]; [reflexivity|].
  change (length (row_run ex (next_row ex r c) w) = length r). rewrite IH. unfold next_row.
  destruct (ignored ex c); [reflexivity|apply step_row_length].
Qed.
Lemma word_row_length ex s w : length (word_row ex s w) = S (fuzz ex).
Proof. unfold word_row. rewrite row_run_length. cbn. rewrite repeat_length. reflexivity. Qed.

Lemma visible_snoc ex w c : visible ex (w ++ [c]) = visible ex w ++ (if ignored ex c then [] else [c]).
Proof. unfold visible. rewrite filter_app. cbn [filter]. unfold ignored. destruct (_ || _); reflexivity. Qed.

Lemma fuzzy_one c u k : fuzzy [c] u k <->
  (u = [c] /\ k = 0) \/ (u = [] /\ k = 1) \/ (exists l, l < 26 /\ u = [l] /\ k = 1) \/
  (exists l, l < 26 /\ u = [l; c] /\ k = 1).
Proof.
  split.
  - intros H. inversion H; subst; match goal with HH : fuzzy [] _ _ |- _ => inversion HH; subst end; eauto 10.
  - intros [[-> ->]|[[-> ->]|[(l & Hl & -> & ->)|(l & Hl & -> & ->)]]]; [apply fuzzy_keep|apply fuzzy_delete|apply fuzzy_change|apply fuzzy_insert]; auto; constructor.
Qed.

Lemma word_row_spec ex : good ex -> forall w s, s < length (states ex) -> forall f t, f <= fuzz ex ->
  (cum (word_row ex s w) f t <-> hits ex s (visible ex w) f t).
Proof.
  intros Hg w s Hs. induction w as [|c w IH] using rev_ind; intros f t Hf.
  - unfold word_row, row_run, hits. cbn [fold_left visible filter]. unfold init_row.
    assert (HZ : forall n g, ~ cum (repeat 0%N n) g t).
    { intros n g (h & x & _ & Hn & Hm). apply nth_error_In in Hn. apply repeat_spec in Hn. subst x.
      rewrite mem_0 in Hm. discriminate. }
    split.
    + intros Hc. exists [], 0. repeat split; [lia|constructor|]. apply (epsilon_states_spec ex Hg s t Hs).
      destruct f as [|f]; [apply cum_0 in Hc; exact Hc|]. apply cum_S in Hc. destruct Hc as [Hc|Hc]; [exact Hc|].
      destruct (HZ _ _ Hc).
    + intros (u & k & Hk & Hfz & Hp). inversion Hfz; subst. apply (epsilon_states_spec ex Hg s t Hs) in Hp.
      exists 0, (epsilon_states ex s). repeat split; auto.
  - unfold word_row, row_run. rewrite fold_left_app. cbn [fold_left].
    change (fold_left (next_row ex) w (init_row ex s)) with (word_row ex s w).
    unfold next_row at 1. rewrite visible_snoc. destruct (ignored ex c) eqn:Hi.
    { rewrite app_nil_r. apply IH. exact Hf. }
    rewrite step_row_cum by (rewrite word_row_length; lia).
    set (r := word_row ex s w) in *.
    assert (HT : forall F f (Q : nat -> Prop), f <= fuzz ex ->
       (forall S, mem (F S) t = true <-> exists j, mem S j = true /\ Q j) ->
       ((exists g S, g <= f /\ nth_error r g = Some S /\ mem (F S) t = true) <->
        exists j, hits ex s (visible ex w) f j /\ Q j)).
    { intros F f0 Q Hf0 HF. split.
      - intros (g & S & Hg' & Hn & Hm). apply HF in Hm. destruct Hm as (j & Hj & HQ). exists j. split; [|exact HQ].
        apply IH; [exact Hf0|]. exists g, S. auto.
      - intros (j & Hj & HQ). apply IH in Hj; [|exact Hf0]. destruct Hj as (g & S & Hg' & Hn & Hm).
        exists g, S. repeat split; auto. apply HF. eauto. }
    (* one edge out of a state of the row, then epsilons *)
    set (one := fun cs j => exists d x, mem cs d = true /\ nth_error (states ex) j = Some x /\
                   cs_contains (chars x) d = true /\ P ex (next x) [] t).
    assert (HCT : forall cs S t', mem (char_transitions ex cs S) t' = true <-> exists j, mem S j = true /\
       exists d x, mem cs d = true /\ nth_error (states ex) j = Some x /\ cs_contains (chars x) d = true /\ P ex (next x) [] t').
    { intros cs S t'. rewrite char_transitions_spec. split.
      - intros (j & x & Hx & Hj & (d & Hd & Hc) & Ht). exists j. split; [exact Hj|]. exists d, x. repeat split; auto.
        apply epsilon_states_spec in Ht; auto. destruct Hg as [[_ Hr] _]. exact (proj1 (Hr _ _ Hx)).
      - intros (j & Hj & d & x & Hd & Hx & Hc & Ht). exists j, x. repeat split; eauto.
        apply epsilon_states_spec; auto. destruct Hg as [[_ Hr] _]. exact (proj1 (Hr _ _ Hx)). }
    rewrite (HT (char_transitions ex (charset_of c)) f _ Hf (fun S => HCT (charset_of c) S t)).
    assert (HEx : forall S, mem (edits ex c S) t = true <-> exists j, mem S j = true /\
       (j = t \/ (exists d x, mem LETTERS d = true /\ nth_error (states ex) j = Some x /\ cs_contains (chars x) d = true /\ P ex (next x) [] t) \/
        (exists d x t', mem LETTERS d = true /\ nth_error (states ex) j = Some x /\ cs_contains (chars x) d = true /\ P ex (next x) [] t' /\
           exists d' x', mem (charset_of c) d' = true /\ nth_error (states ex) t' = Some x' /\ cs_contains (chars x') d' = true /\ P ex (next x') [] t))).
    { intros S. unfold edits. rewrite !mem_lor, !orb_true_iff, (HCT LETTERS S), (HCT (charset_of c)). split.
      - intros [[H|(j & Hj & H)]|(t' & Ht' & d' & x' & H1 & H2 & H3 & H4)]; [exists t; auto|exists j; auto|].
        apply HCT in Ht'. destruct Ht' as (j & Hj & d & x & Hd & Hx & Hc & Hp). exists j. split; [exact Hj|].
        right. right. exists d, x, t'. repeat split; auto. exists d', x'. auto.
      - intros (j & Hj & [->|[H|(d & x & t' & Hd & Hx & Hc & Hp & d' & x' & H1 & H2 & H3 & H4)]]); [auto|left; right; eauto|].
        right. exists t'. split; [apply HCT; exists j; split; [exact Hj|]; exists d, x; auto|]. exists d', x'. auto. }
    (* elementary paths *)
    assert (H1 : forall j d x v t', nth_error (states ex) j = Some x -> cs_contains (chars x) d = true -> P ex (next x) v t' -> P ex j (d :: v) t').
    { intros j d x v t' Hx Hc Hp. eapply path_chr; [apply edge0; eauto|exact Hp]. }
    assert (HM : forall d, mem (charset_of c) d = true <-> d = c).
    { intros d. rewrite mem_charset_of, Nat.eqb_eq. split; auto. }
    destruct f as [|f].
    + split.
      * intros [(j & (u & k & Hk & Hfz & Hp) & d & x & Hd & Hx & Hc & Ht)|(g & S & Hg' & _)]; [|lia].
        apply HM in Hd. subst d. exists (u ++ [c]), (k + 0). split; [lia|]. split.
        -- apply fuzzy_app; [exact Hfz|apply fuzzy_refl].
        -- eapply path_app'; [exact Hp|]. eapply H1; eauto.
      * intros (u & k & Hk & Hfz & Hp). left. apply fuzzy_app_inv in Hfz.
        destruct Hfz as (u1 & u2 & k1 & k2 & -> & -> & Hf1 & Hf2). apply fuzzy_one in Hf2.
        assert (u2 = [c]) as -> by (destruct Hf2 as [[-> _]|[[_ ->]|[(l & _ & _ & ->)|(l & _ & _ & ->)]]]; auto; lia).
        apply path_app_inv in Hp. destruct Hp as (m & Hp1 & Hp2). apply edge_char_inv in Hp2.
        destruct Hp2 as (j & x & Hmj & Hx & Hcc & Hp2). exists j. split.
        -- exists u1, k1. repeat split; [lia|exact Hf1|]. rewrite <- (app_nil_r u1). eapply path_app'; eauto.
        -- exists c, x. repeat split; auto. apply HM. reflexivity.
    + assert (HR : (exists g S0, g < S f /\ nth_error r g = Some S0 /\ mem (edits ex c S0) t = true) <->
                   (exists g S0, g <= f /\ nth_error r g = Some S0 /\ mem (edits ex c S0) t = true)).
      { split; intros (g & S & Hg' & HH); exists g, S; (split; [lia|exact HH]). }
      rewrite HR, (HT (edits ex c) f _ ltac:(lia) HEx). clear HR HT. split.
      * intros [(j & (u & k & Hk & Hfz & Hp) & d & x & Hd & Hx & Hc & Ht)|(j & (u & k & Hk & Hfz & Hp) & HQ)].
        -- apply HM in Hd. subst d. exists (u ++ [c]), (k + 0). split; [lia|]. split.
           ++ apply fuzzy_app; [exact Hfz|apply fuzzy_refl].
           ++ eapply path_app'; [exact Hp|]. eapply H1; eauto.
        -- destruct HQ as [->|[(d & x & Hd & Hx & Hc & Ht)|(d & x & t' & Hd & Hx & Hc & Hp' & d' & x' & Hd' & Hx' & Hc' & Ht)]].
           ++ exists (u ++ []), (k + 1). split; [lia|]. split; [|rewrite app_nil_r; exact Hp].
              apply fuzzy_app; [exact Hfz|]. apply fuzzy_one. auto.
           ++ exists (u ++ [d]), (k + 1). split; [lia|]. apply mem_letters in Hd. split.
              ** apply fuzzy_app; [exact Hfz|]. apply fuzzy_one. right. right. left. eauto.
              ** eapply path_app'; [exact Hp|]. eapply H1; eauto.
           ++ exists (u ++ [d; c]), (k + 1). split; [lia|]. apply mem_letters in Hd. apply HM in Hd'. subst d'. split.
              ** apply fuzzy_app; [exact Hfz|]. apply fuzzy_one. right. right. right. eauto.
              ** eapply path_app'; [exact Hp|]. eapply H1; eauto. change [c] with ([] ++ [c]). eapply path_app'; [exact Hp'|]. eapply H1; eauto.
      * intros (u & k & Hk & Hfz & Hp). apply fuzzy_app_inv in Hfz.
        destruct Hfz as (u1 & u2 & k1 & k2 & -> & -> & Hf1 & Hf2). apply fuzzy_one in Hf2.
        apply path_app_inv in Hp. destruct Hp as (m & Hp1 & Hp2).
        destruct Hf2 as [[-> ->]|[[-> ->]|[(l & Hl & -> & ->)|(l & Hl & -> & ->)]]].
        -- left. apply edge_char_inv in Hp2. destruct Hp2 as (j & x & Hmj & Hx & Hcc & Hp2). exists j. split.
           ++ exists u1, k1. repeat split; [lia|exact Hf1|]. rewrite <- (app_nil_r u1). eapply path_app'; eauto.
           ++ exists c, x. repeat split; auto. apply HM. reflexivity.
        -- right. exists t. split; [|auto]. exists u1, k1. repeat split; [lia|exact Hf1|]. rewrite <- (app_nil_r u1). eapply path_app'; eauto.
        -- right. apply edge_char_inv in Hp2. destruct Hp2 as (j & x & Hmj & Hx & Hcc & Hp2). exists j. split.
           ++ exists u1, k1. repeat split; [lia|exact Hf1|]. rewrite <- (app_nil_r u1). eapply path_app'; eauto.
           ++ right. left. exists l, x. repeat split; auto. apply mem_letters. exact Hl.
        -- right. apply edge_char_inv in Hp2. destruct Hp2 as (j & x & Hmj & Hx & Hcc & Hp2).
           apply edge_char_inv in Hp2. destruct Hp2 as (j2 & x2 & Hmj2 & Hx2 & Hcc2 & Hp2). exists j. split.
           ++ exists u1, k1. repeat split; [lia|exact Hf1|]. rewrite <- (app_nil_r u1). eapply path_app'; eauto.
           ++ right. right. exists l, x, j2. repeat split; auto; [apply mem_letters; exact Hl|].
              exists c, x2. repeat split; auto. apply HM. reflexivity.
Qed.
