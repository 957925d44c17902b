(** The depth-first search over phrases (query.rs:502-638). *)
From Verif Require Export PassProofs.

Lemma foldM_map {A B} (f : A -> outcome B) l g : (forall a, In a l -> f a = Ok (g a)) -> mapM f l = Ok (map g l).
Proof.
  induction l as [|a l IH]; intros H; [reflexivity|]. cbn [mapM map]. rewrite (H a (or_introl eq_refl)). cbn [bind].
  rewrite IH by (intros; apply H; right; assumption). reflexivity.
Qed.
Definition olist {X} (o : option X) : list X := match o with Some x => [x] | None => [] end.

(** The turns of the loop. *)
Inductive exec : pstate -> list (list word) -> pstate -> Prop :=
| exec_refl s : exec s [] s
| exec_step s s1 r out s2 : turn s = Ok (Some s1, r) -> exec s1 out s2 -> exec s (olist r ++ out) s2.
Lemma exec_trans s1 o1 s2 o2 s3 : exec s1 o1 s2 -> exec s2 o2 s3 -> exec s1 (o1 ++ o2) s3.
Proof. induction 1; intros H2; [exact H2|]. rewrite <- app_assoc. econstructor; eauto. Qed.

Lemma max_list_app l1 l2 : max_list (l1 ++ l2) = Nat.max (max_list l1) (max_list l2).
Proof. induction l1 as [|a l1 IH]; [reflexivity|]. cbn [app]. change (max_list (a :: ?l)) with (Nat.max a (max_list l)). 
  change (max_list (a :: l1 ++ l2)) with (Nat.max a (max_list (l1 ++ l2))). change (max_list (a :: l1)) with (Nat.max a (max_list l1)). lia. Qed.
Lemma maxt_snoc p w : maxt (p ++ [w]) = Nat.max (maxt p) (w_tranche w).
Proof. unfold maxt. rewrite map_app. change (fold_right Nat.max 0 (map w_tranche p ++ map w_tranche [w])) with (max_list (map w_tranche p ++ map w_tranche [w])). rewrite max_list_app. cbn [map]. change (max_list [w_tranche w]) with (Nat.max (w_tranche w) 0). unfold max_list. lia. Qed.

Section dfs.
Variable A : list word.
Variable PT : list (phrase_matcher * (word -> table)).
Hypothesis HPT : forall pm tbl, In (pm, tbl) PT -> 0 < fuzz_limit pm /\
  forall wi w, nth_error A wi = Some w -> forall prev nxt, step_by_word_index pm wi prev nxt = Ok (step (fuzz_limit pm) (tbl w) prev nxt).
Hypothesis Hsort : sorted_words A.

Definition prow (p : list word) (x : phrase_matcher * (word -> table)) : row :=
  run (fuzz_limit (fst x)) (map (snd x) p) (start_row (fuzz_limit (fst x)) (start_states (fst x))).
Definition rows (p : list word) : list row := map (prow p) PT.
Definition live (p : list word) : bool := forallb (fun x => negb (empty_row (prow p x))) PT.
Definition okp (p : list word) : bool := forallb (fun x => has_success_state (fst x) (prow p x)) PT.
Notation pms := (map fst PT).

Lemma prow_length p x : length (prow p x) = fuzz_limit (fst x).
Proof. apply run_length, start_row_length. Qed.
Lemma prow_snoc p w x : prow (p ++ [w]) x = step (fuzz_limit (fst x)) (snd x w) (prow p x) (zero_row (fuzz_limit (fst x))).
Proof. unfold prow. rewrite map_app, run_app. reflexivity. Qed.
Lemma live_app p q : live (p ++ q) = true -> live p = true.
Proof.
  unfold live. rewrite !forallb_forall. intros H x Hx. specialize (H x Hx). destruct (empty_row (prow p x)) eqn:E; [|reflexivity].
  exfalso. unfold prow in H. rewrite map_app, run_app in H. fold (prow p x) in H. rewrite run_empty in H; [discriminate|apply prow_length|exact E].
Qed.
Lemma ok_live p : okp p = true -> live p = true.
Proof.
  unfold okp, live. rewrite !forallb_forall. intros H x Hx. specialize (H x Hx). destruct (empty_row (prow p x)) eqn:E; [|reflexivity]. exfalso.
  unfold has_success_state in H. apply has_state_cum in H. destruct H as (f & Hf & Hm). unfold empty_row in E. rewrite forallb_forall in E.
  assert (Hn : nth f (prow p x) 0%N = 0%N).
  { destruct (le_lt_dec (length (prow p x)) f) as [Hl|Hl]; [apply nth_overflow; exact Hl|]. apply N.eqb_eq, E, nth_In. exact Hl. }
  rewrite Hn, mem_0 in Hm. discriminate.
Qed.

Lemma step_matchers_spec p wi w : nth_error A wi = Some w -> forall PT', (forall x, In x PT' -> In x PT) -> forall nxt, length nxt = length PT' ->
  exists rs exact partial, step_matchers (map fst PT') wi (map (prow p) PT') nxt = Ok (rs, exact, partial) /\ length rs = length PT' /\
    partial = forallb (fun x => negb (empty_row (prow (p ++ [w]) x))) PT' /\
    (partial = true -> rs = map (prow (p ++ [w])) PT' /\ exact = forallb (fun x => has_success_state (fst x) (prow (p ++ [w]) x)) PT') /\
    (partial = false -> exact = false).
Proof.
  intros Hw. induction PT' as [|[pm tbl] PT' IH]; intros Hin nxt Hl; cbn [map step_matchers].
  - exists nxt, true, true. repeat split; auto. destruct nxt; [reflexivity|discriminate].
  - destruct nxt as [|r0 nxt]; [discriminate|]. cbn [fst].
    destruct (HPT pm tbl (Hin _ (or_introl eq_refl))) as [Hpos Hst]. rewrite (Hst wi w Hw). cbn [bind].
    change (step (fuzz_limit pm) (tbl w) (prow p (pm, tbl)) (zero_row (fuzz_limit pm)))
      with (step (fuzz_limit (fst (pm, tbl))) (snd (pm, tbl) w) (prow p (pm, tbl)) (zero_row (fuzz_limit (fst (pm, tbl))))).
    rewrite <- prow_snoc. cbn [forallb]. destruct (empty_row (prow (p ++ [w]) (pm, tbl))) eqn:Ee.
    + exists (prow (p ++ [w]) (pm, tbl) :: nxt), false, false. cbn in Hl |- *. repeat split; auto; discriminate.
    + destruct (IH (fun x Hx => Hin x (or_intror Hx)) nxt) as (rs & exact & partial & E & H1 & H2 & H3 & H4); [cbn in Hl; lia|].
      rewrite E. cbn [bind]. eexists _, _, partial. split; [reflexivity|]. cbn [length negb andb fst]. split; [congruence|]. split; [exact H2|]. split.
      * intros Hp. destruct (H3 Hp) as [-> ->]. auto.
      * intros Hp. rewrite (H4 Hp). apply andb_false_r.
Qed.

(** ** Layers *)
Definition rowsized (Ls : list layer) : Prop := Forall (fun l => length (l_rows l) = length PT) Ls.
Definition below (k : nat) (Ls Ls' : list layer) : Prop := forall j, j < k -> nth_error Ls' j = nth_error Ls j.
Definition agree (Ls : list layer) (p : list word) : Prop := forall j w, nth_error p j = Some w ->
  exists l, nth_error Ls j = Some l /\ nth_error A (l_word l) = Some w.
Definition at_level (p : list word) (Ls : list layer) (i : nat) (w : word) : Prop :=
  agree Ls p /\ nth_error A i = Some w /\ nth_error Ls (length p) = Some (mkLayer i (maxt (p ++ [w])) (rows p)).

Lemma agree_below Ls Ls' p : agree Ls p -> below (length p) Ls Ls' -> agree Ls' p.
Proof.
  intros H Hb j w Hj. destruct (H j w Hj) as (l & H1 & H2). exists l. split; [|exact H2]. rewrite Hb; [exact H1|].
  eapply nth_lt; eauto.
Qed.
Lemma below_refl k Ls : below k Ls Ls. Proof. intros j _. reflexivity. Qed.
Lemma below_trans k a b c : below k a b -> below k b c -> below k a c.
Proof. intros H1 H2 j Hj. rewrite H2, H1 by exact Hj. reflexivity. Qed.
Lemma below_le k k' a b : k' <= k -> below k a b -> below k' a b.
Proof. intros H H1 j Hj. apply H1. lia. Qed.
Lemma below_upd k Ls i l : k <= i -> below k Ls (upd Ls i l).
Proof. intros H j Hj. rewrite nth_error_upd. destruct (Nat.eqb_spec i j); [lia|reflexivity]. Qed.
Lemma rowsized_upd Ls i l : rowsized Ls -> length (l_rows l) = length PT -> rowsized (upd Ls i l).
Proof.
  unfold rowsized. rewrite !Forall_forall. intros H Hl x Hx. apply In_nth_error in Hx. destruct Hx as (j & Hj). rewrite nth_error_upd in Hj.
  destruct (i =? j); [destruct (j <? length Ls); [|discriminate]; injection Hj as <-; exact Hl|]. apply H. eapply nth_error_In; eauto.
Qed.
Lemma rows_length p : length (rows p) = length PT. Proof. apply map_length. Qed.
Lemma nth_upd_same {X} (l : list X) i x : i < length l -> nth_error (upd l i x) i = Some x.
Proof. intros H. rewrite nth_error_upd, Nat.eqb_refl. apply Nat.ltb_lt in H. rewrite H. reflexivity. Qed.

Lemma current_phrase_spec Ls p i w : at_level p Ls i w -> forall x, current_phrase A (upd Ls (length p + 1) x) (length p) = Ok (p ++ [w]).
Proof.
  intros (Ha & Hw & Hl) x. unfold current_phrase.
  assert (Hlen : length p < length Ls) by (eapply nth_lt; eauto).
  assert (H : forall l (q : list word), length l = length q -> (forall j u, nth_error q j = Some u -> exists y, nth_error l j = Some y /\ nth_error A (l_word y) = Some u) ->
            mapM (fun l => index A (l_word l)) l = Ok q).
  { clear. induction l as [|y l IH]; intros [|u q] HL H; try discriminate; [reflexivity|].
    destruct (H 0 u eq_refl) as (y' & Hy & Hu). injection Hy as <-. cbn [mapM]. unfold index at 1. rewrite Hu. cbn [bind].
    rewrite (IH q); [reflexivity|cbn in HL; lia|]. intros j v Hj. apply (H (S j) v Hj). }
  apply H.
  - rewrite firstn_length, upd_length, app_length. cbn. lia.
  - intros j u Hj. assert (Hjl : j < length (p ++ [w])) by (eapply nth_lt; eauto). rewrite app_length in Hjl. cbn in Hjl.
    rewrite nth_error_firstn'. rewrite (proj2 (Nat.ltb_lt _ _)) by lia. rewrite nth_error_upd.
    destruct (Nat.eqb_spec (length p + 1) j); [lia|]. destruct (Nat.eq_dec j (length p)) as [->|].
    + rewrite nth_error_app2 in Hj by lia. rewrite Nat.sub_diag in Hj. injection Hj as <-. exists (mkLayer i (maxt (p ++ [w])) (rows p)). auto.
    + rewrite nth_error_app1 in Hj by lia. apply Ha. exact Hj.
Qed.

(** ** One phase *)
Section phase.
Variable ph : phase.
Variable q0 : list phase.
Variable sz : list N.
Variable nt : nat.
Notation d := (depth ph).
Notation t := (tranche ph).
Hypothesis Hnt : forall i w, nth_error A i = Some w -> (i < nt <-> w_tranche w <= t).
Hypothesis Hnt0 : 0 < nt <= length A.
Let q := ph :: q0.

Definition up (li : nat) (Ls : list layer) (part : bool) : outcome (option (list phase * list layer * nat * bool)) :=
  match li with 0 => next_phase A ph q Ls part | S li' => advance li' A ph q Ls part end.
Definition after (res : option (list word)) (r : option (list phase * list layer * nat * bool)) : outcome (option pstate * option (list word)) :=
  match r with
  | None => Ok (None, res)
  | Some (q, layers, li, part) => Ok (Some (mkPS pms A q layers li part sz), res)
  end.
Definition St (Ls : list layer) (li : nat) (part : bool) : pstate := mkPS pms A q Ls li part sz.

Definition sel (l : list (list word)) : list (list word) := filter (fun s => okp s && (maxt s =? t)) l.
Definition at_words : list word := firstn nt A.
Definition from (p : list word) (r : nat) (w : word) : list (list word) := map (fun s => p ++ w :: s) (tuples at_words r).
Definition enum (p : list word) (i r : nat) : list (list word) := flat_map (from p r) (skipn i at_words).

Lemma enum_0 p w r : enum (p ++ [w]) 0 r = from p (S r) w.
Proof.
  unfold enum, from. cbn [skipn tuples]. generalize (tuples at_words r) as T. intros T. generalize at_words as l.
  induction l as [|x l IH]; [reflexivity|]. cbn [flat_map].
  rewrite map_app, IH, map_map. f_equal. apply map_ext. intros s. rewrite <- app_assoc. reflexivity.
Qed.
Lemma enum_step p i r w : nth_error A i = Some w -> i < nt -> enum p i r = from p r w ++ enum p (S i) r.
Proof.
  intros Hw Hi. unfold enum. assert (Hn : nth_error at_words i = Some w).
  { unfold at_words. rewrite nth_error_firstn'. rewrite (proj2 (Nat.ltb_lt _ _)) by lia. exact Hw. }
  revert Hn. generalize (from p r) as F. generalize at_words as l. clear. intros l F. revert i. induction l as [|x l IH]; intros [|i] H; try discriminate.
  - injection H as ->. reflexivity.
  - cbn [skipn]. rewrite (IH i H). reflexivity.
Qed.
Lemma enum_end p i r : nt <= i -> enum p i r = [].
Proof. intros H. unfold enum, at_words. rewrite skipn_all2; [reflexivity|]. rewrite firstn_length. lia. Qed.

Lemma advance_next p Ls i w part : at_level p Ls i w -> length p < length Ls -> S i < nt -> rowsized Ls ->
  exists Ls' w', advance (length p) A ph q Ls part = Ok (Some (q, Ls', length p, part)) /\ at_level p Ls' (S i) w' /\ below (length p) Ls Ls' /\
    length Ls' = length Ls /\ rowsized Ls'.
Proof.
  intros (Ha & Hw & Hl) HL Hi Hrs. destruct (nth_some A (S i)) as (w' & Hw'); [lia|].
  assert (E : advance (length p) A ph q Ls part = Ok (Some (q, upd (upd Ls (length p) (mkLayer (S i) (maxt (p ++ [w])) (rows p))) (length p)
      (mkLayer (S i) (Nat.max (maxt (p ++ [w])) (w_tranche w')) (rows p)), length p, part))).
  { destruct (length p) as [|k] eqn:Ep; cbn [advance]; unfold index; rewrite Hl; cbn [bind l_word l_tranche l_rows]; rewrite Hw';
      (rewrite (proj2 (Nat.ltb_ge _ _)) by (apply (Hnt _ _ Hw'); exact Hi)); reflexivity. }
  eexists _, w'. split; [exact E|].
  assert (Hb : below (length p) Ls (upd (upd Ls (length p) (mkLayer (S i) (maxt (p ++ [w])) (rows p))) (length p)
      (mkLayer (S i) (Nat.max (maxt (p ++ [w])) (w_tranche w')) (rows p)))).
  { eapply below_trans; [apply (below_upd _ _ (length p)); lia|apply below_upd; lia]. }
  split; [|split; [exact Hb|split; [rewrite !upd_length; reflexivity|]]].
  - split; [eapply agree_below; eauto|]. split; [exact Hw'|]. rewrite nth_upd_same by (rewrite upd_length; exact HL). do 2 f_equal.
    rewrite !maxt_snoc. pose proof (Hsort i (S i) w w' ltac:(lia) Hw Hw'). lia.
  - apply rowsized_upd; [apply rowsized_upd; [exact Hrs|]|]; apply rows_length.
Qed.
Lemma advance_up p Ls i w part : at_level p Ls i w -> nt <= S i -> rowsized Ls ->
  exists Ls', advance (length p) A ph q Ls part = up (length p) Ls' part /\ below (length p) Ls Ls' /\ length Ls' = length Ls /\ rowsized Ls' /\
    (forall l, nth_error Ls' (length p) = Some l -> l_rows l = rows p).
Proof.
  intros (Ha & Hw & Hl) Hi Hrs. exists (upd Ls (length p) (mkLayer (S i) (maxt (p ++ [w])) (rows p))).
  split; [|split; [apply below_upd; lia|split; [apply upd_length|split; [apply rowsized_upd; [exact Hrs|apply rows_length]|]]]].
  - assert (Hx : match nth_error A (S i) with Some w' => t <? w_tranche w' | None => true end = true).
    { destruct (nth_error A (S i)) as [w'|] eqn:E; [|reflexivity]. apply Nat.ltb_lt. destruct (le_lt_dec (w_tranche w') t) as [H|H]; [|exact H].
      apply (Hnt _ _ E) in H. lia. }
    destruct (length p) as [|k] eqn:Ep; cbn [advance up]; unfold index; rewrite Hl; cbn [bind l_word l_tranche l_rows];
      destruct (nth_error A (S i)) as [w'|]; [rewrite Hx| |rewrite Hx|]; reflexivity.
  - intros l. assert (length p < length Ls) by (eapply nth_lt; eauto). rewrite nth_upd_same by assumption. intros [= <-]. reflexivity.
Qed.

(** What a turn does with the word of the current layer. *)
Lemma turn_spec p Ls i w part : at_level p Ls i w -> length p < d -> d < length Ls -> rowsized Ls ->
  exists Ls1, below (S (length p)) Ls Ls1 /\ length Ls1 = length Ls /\ rowsized Ls1 /\
   (if live (p ++ [w]) && (length p + 1 <? d)
    then (forall w0, nth_error A 0 = Some w0 -> at_level (p ++ [w]) Ls1 0 w0) /\
         turn (St Ls (length p) part) = Ok (Some (St Ls1 (S (length p)) part), None)
    else let full := length p + 1 =? d in
         turn (St Ls (length p) part) =
           bind (advance (length p) A ph q Ls1 (part || (live (p ++ [w]) && full)))
                (after (if full && okp (p ++ [w]) && (maxt (p ++ [w]) =? t) then Some (p ++ [w]) else None))).
Proof.
  intros Hat Hd HL Hrs. destruct Hat as (Ha & Hw & Hl).
  destruct (nth_some Ls (length p + 1)) as (nl & Hnl); [lia|].
  destruct (step_matchers_spec p i w Hw PT (fun x Hx => Hx) (l_rows nl)) as (rs & exact & partial & E & H1 & H2 & H3 & H4).
  { unfold rowsized in Hrs. rewrite Forall_forall in Hrs. apply Hrs. eapply nth_error_In; eauto. }
  fold (live (p ++ [w])) in H2. fold (okp (p ++ [w])) in H3. fold (rows (p ++ [w])) in H3.
  assert (HO : partial || exact = live (p ++ [w])). { destruct partial; [cbn; exact H2|]. rewrite (H4 eq_refl). exact H2. }
  assert (HX : exact = okp (p ++ [w])).
  { destruct partial; [apply H3; reflexivity|]. rewrite (H4 eq_refl). destruct (okp (p ++ [w])) eqn:Eo; [|reflexivity].
    apply ok_live in Eo. congruence. }
  set (Ls0 := upd Ls (length p + 1) (mkLayer (l_word nl) (l_tranche nl) rs)).
  assert (Hturn : turn (St Ls (length p) part) =
    bind (if okp (p ++ [w]) && (length p + 1 =? d) && (maxt (p ++ [w]) =? t) then do ws <- current_phrase A Ls0 (length p); Ok (Some ws) else Ok None)
      (fun result => if live (p ++ [w]) && (length p + 1 <? d)
         then do l <- index Ls0 (length p + 1);
              Ok (Some (mkPS pms A q (upd Ls0 (length p + 1) (mkLayer 0 (maxt (p ++ [w])) (l_rows l))) (length p + 1)
                    (part || (live (p ++ [w]) && (length p + 1 =? d))) sz), result)
         else bind (advance (length p) A ph q Ls0 (part || (live (p ++ [w]) && (length p + 1 =? d)))) (after result))).
  { unfold turn. cbn [p_queue p_layers p_layer p_matchers p_words p_partial p_sizes St]. change (index q 0) with (Ok ph). cbn [bind].
    unfold index at 1. rewrite Hl. cbn [bind]. unfold index at 1. rewrite Hnl. cbn [bind l_word l_rows l_tranche].
    fold (rows p) in E. rewrite E. cbn [bind]. rewrite HO, HX. reflexivity. }
  assert (Hb0 : below (S (length p)) Ls Ls0) by (apply below_upd; lia).
  assert (Hl0 : length Ls0 = length Ls) by apply upd_length.
  assert (Hr0 : rowsized Ls0) by (apply rowsized_upd; [exact Hrs|exact H1]).
  destruct (live (p ++ [w]) && (length p + 1 <? d)) eqn:Eg.
  - apply andb_true_iff in Eg. destruct Eg as [Elv Elt]. apply Nat.ltb_lt in Elt.
    replace (length p + 1 =? d) with false in Hturn by (symmetry; apply Nat.eqb_neq; lia).
    rewrite !andb_false_r, orb_false_r in Hturn. cbn [andb bind] in Hturn.
    assert (HN : nth_error Ls0 (length p + 1) = Some (mkLayer (l_word nl) (l_tranche nl) rs)) by (apply nth_upd_same; lia).
    unfold index at 1 in Hturn. rewrite HN in Hturn. cbn [bind l_rows] in Hturn.
    exists (upd Ls0 (length p + 1) (mkLayer 0 (maxt (p ++ [w])) rs)). split; [|split; [rewrite upd_length; exact Hl0|split; [apply rowsized_upd; [exact Hr0|exact H1]|split]]].
    + eapply below_trans; [exact Hb0|apply below_upd; lia].
    + intros w0 Hw0. destruct (H3 (eq_trans H2 Elv)) as [-> _]. split; [|split; [exact Hw0|]].
      * intros j u Hj. assert (Hjl : j < length (p ++ [w])) by (eapply nth_lt; eauto). rewrite app_length in Hjl. cbn in Hjl.
        rewrite nth_error_upd. destruct (Nat.eqb_spec (length p + 1) j); [lia|]. rewrite Hb0 by lia.
        destruct (Nat.eq_dec j (length p)) as [->|].
        -- rewrite nth_error_app2 in Hj by lia. rewrite Nat.sub_diag in Hj. injection Hj as <-. eexists. split; [exact Hl|exact Hw].
        -- rewrite nth_error_app1 in Hj by lia. apply Ha. exact Hj.
      * rewrite app_length. cbn [length]. rewrite nth_upd_same by lia. do 2 f_equal. rewrite (maxt_snoc (p ++ [w])).
        pose proof (Hsort 0 i w0 w ltac:(lia) Hw0 Hw). rewrite maxt_snoc. lia.
    + rewrite Hturn. unfold St. rewrite Nat.add_1_r. reflexivity.
  - exists Ls0. split; [exact Hb0|]. split; [exact Hl0|]. split; [exact Hr0|]. cbv zeta. rewrite Hturn.
    assert (Hc : current_phrase A Ls0 (length p) = Ok (p ++ [w])) by (eapply current_phrase_spec; split; [exact Ha|split; [exact Hw|exact Hl]]).
    rewrite Hc. cbn [bind].
    replace (okp (p ++ [w]) && (length p + 1 =? d)) with ((length p + 1 =? d) && okp (p ++ [w])) by apply andb_comm.
    destruct ((length p + 1 =? d) && okp (p ++ [w]) && (maxt (p ++ [w]) =? t)); cbn [bind]; reflexivity.
Qed.

Lemma filter_none {X} (f : X -> bool) l : (forall x, In x l -> f x = false) -> filter f l = [].
Proof. induction l as [|x l IH]; intros H; [reflexivity|]. cbn. rewrite (H x (or_introl eq_refl)). apply IH. intros y Hy. apply H. right. exact Hy. Qed.
Lemma from_dead p r w : live (p ++ [w]) = false -> sel (from p r w) = [] /\ existsb live (from p r w) = false.
Proof.
  intros H. assert (Hd : forall s, In s (from p r w) -> live s = false).
  { intros s Hs. unfold from in Hs. apply in_map_iff in Hs. destruct Hs as (s0 & <- & _). destruct (live (p ++ w :: s0)) eqn:E; [|reflexivity].
    replace (p ++ w :: s0) with ((p ++ [w]) ++ s0) in E by (rewrite <- app_assoc; reflexivity). apply live_app in E. congruence. }
  split.
  - apply filter_none. intros s Hs. destruct (okp s) eqn:E; [|reflexivity]. apply ok_live in E. rewrite (Hd s Hs) in E. discriminate.
  - destruct (existsb live (from p r w)) eqn:E; [|reflexivity]. apply existsb_exists in E. destruct E as (s & Hs & E). rewrite (Hd s Hs) in E. discriminate.
Qed.
Lemma from_0 p w : from p 0 w = [p ++ [w]]. Proof. reflexivity. Qed.

(** A whole subtree: its last turn goes on as one level up. *)
Definition subtree (p : list word) (r i : nat) (Ls : list layer) (part : bool) : Prop :=
  exists out s1 res Ls', exec (St Ls (length p) part) out s1 /\
    turn s1 = bind (up (length p) Ls' (part || existsb live (enum p i r))) (after res) /\
    out ++ olist res = sel (enum p i r) /\ below (length p) Ls Ls' /\ length Ls' = length Ls /\ rowsized Ls' /\
    (forall l, nth_error Ls' (length p) = Some l -> l_rows l = rows p) /\
    (forall ws, res = Some ws -> exists w, nth_error A (nt - 1) = Some w /\ ws = p ++ repeat w (S r)).

Lemma word_done p r i w Ls part out s1 res Ls1 : d = length p + S r -> at_level p Ls i w -> i < nt -> d < length Ls ->
  exec (St Ls (length p) part) out s1 ->
  turn s1 = bind (advance (length p) A ph q Ls1 (part || existsb live (from p r w))) (after res) ->
  out ++ olist res = sel (from p r w) -> below (S (length p)) Ls Ls1 -> length Ls1 = length Ls -> rowsized Ls1 ->
  (forall ws, res = Some ws -> nt <= S i -> ws = p ++ repeat w (S r)) ->
  (S i < nt -> forall Ls2 w' part2, at_level p Ls2 (S i) w' -> d < length Ls2 -> rowsized Ls2 -> subtree p r (S i) Ls2 part2) ->
  subtree p r i Ls part.
Proof.
  intros Hd Hat Hi HL HE HT HO HB HLL HR HW Hnext. assert (Hwi : nth_error A i = Some w) by apply Hat.
  assert (Hat1 : at_level p Ls1 i w).
  { destruct Hat as (Ha & Hw' & Hl). split; [eapply agree_below; [exact Ha|eapply below_le; [|exact HB]; lia]|]. split; [exact Hw'|]. rewrite HB by lia. exact Hl. }
  destruct (le_lt_dec nt (S i)) as [Hend|Hmore].
  - destruct (advance_up p Ls1 i w (part || existsb live (from p r w)) Hat1 Hend HR) as (Ls2 & E & B2 & L2 & R2 & W2).
    exists out, s1, res, Ls2. rewrite (enum_step p i _ w Hwi Hi), (enum_end p (S i)) by lia. rewrite app_nil_r.
    split; [exact HE|]. split; [rewrite <- E; exact HT|]. split; [exact HO|].
    split; [eapply below_trans; [eapply below_le; [|exact HB]; lia|exact B2]|]. split; [congruence|]. split; [exact R2|]. split; [exact W2|].
    intros ws Hws. exists w. split; [replace (nt - 1) with i by lia; exact Hwi|]. apply HW; [exact Hws|exact Hend].
  - destruct (advance_next p Ls1 i w (part || existsb live (from p r w)) Hat1 ltac:(rewrite HLL; lia) Hmore HR) as (Ls2 & w' & E & A2 & B2 & L2 & R2).
    rewrite E in HT. cbn [bind after] in HT.
    destruct (Hnext Hmore Ls2 w' (part || existsb live (from p r w)) A2 ltac:(lia) R2) as (o & s2 & rs & Ls3 & F1 & F2 & F3 & F4 & F5 & F6 & F7 & F8).
    exists (out ++ olist res ++ o), s2, rs, Ls3. rewrite (enum_step p i _ w Hwi Hi).
    split; [eapply exec_trans; [exact HE|]; eapply exec_step; [exact HT|exact F1]|].
    split; [rewrite existsb_app, orb_assoc; exact F2|].
    split; [unfold sel in *; rewrite filter_app, <- F3, <- HO, <- !app_assoc; reflexivity|].
    split; [eapply below_trans; [eapply below_trans; [eapply below_le; [|exact HB]; lia|exact B2]|exact F4]|].
    split; [congruence|]. split; [exact F6|]. split; [exact F7|exact F8].
Qed.

Lemma level r : forall p, d = length p + S r -> forall m i w Ls part, nt - i = S m -> at_level p Ls i w -> d < length Ls -> rowsized Ls ->
  subtree p r i Ls part.
Proof.
  induction r as [|r IHr]; intros p Hd; induction m as [m IHm] using lt_wf_ind; intros i w Ls part Hm Hat HL Hrs;
    assert (Hnext : S i < nt -> forall Ls2 w' part2, at_level p Ls2 (S i) w' -> d < length Ls2 -> rowsized Ls2 -> subtree p _ (S i) Ls2 part2) by
      (intros Hlt Ls2 w' part2 G1 G2 G3; apply (IHm (m - 1) ltac:(lia) (S i) w'); auto; lia);
    destruct (turn_spec p Ls i w part Hat ltac:(lia) HL Hrs) as (Ls1 & B1 & L1 & R1 & HT).
  - replace (length p + 1 <? d) with false in HT by (symmetry; apply Nat.ltb_ge; lia).
    replace (length p + 1 =? d) with true in HT by (symmetry; apply Nat.eqb_eq; lia). rewrite andb_false_r in HT. cbv zeta in HT. cbn [andb] in HT. rewrite andb_true_r in HT.
    eapply (word_done p 0 i w Ls part [] _ _ Ls1); [exact Hd|exact Hat|lia|exact HL|constructor| | |exact B1|exact L1|exact R1| |exact Hnext].
    + rewrite from_0. cbn [existsb]. rewrite orb_false_r. exact HT.
    + rewrite from_0. unfold sel. cbn [filter app]. destruct (okp (p ++ [w]) && (maxt (p ++ [w]) =? t)); reflexivity.
    + intros ws Hws _. destruct (okp (p ++ [w]) && (maxt (p ++ [w]) =? t)); [|discriminate]. injection Hws as <-. reflexivity.
  - replace (length p + 1 <? d) with true in HT by (symmetry; apply Nat.ltb_lt; lia).
    replace (length p + 1 =? d) with false in HT by (symmetry; apply Nat.eqb_neq; lia). rewrite andb_true_r in HT. cbv zeta in HT. cbn [andb] in HT.
    destruct (live (p ++ [w])) eqn:Elv.
    + destruct HT as [Hat1 HT]. destruct (nth_some A 0) as (w0 & Hw0); [lia|].
      destruct (IHr (p ++ [w]) ltac:(rewrite app_length; cbn; lia) (nt - 1) 0 w0 Ls1 part ltac:(lia) (Hat1 w0 Hw0) ltac:(lia) R1)
        as (o & s2 & rs & Ls3 & F1 & F2 & F3 & F4 & F5 & F6 & F7 & F8).
      rewrite enum_0 in F2, F3. rewrite app_length in F1, F2, F4. cbn [length] in F1, F2, F4. rewrite Nat.add_1_r in F1, F2, F4. cbn [up] in F2.
      eapply (word_done p (S r) i w Ls part o s2 rs Ls3); [exact Hd|exact Hat|lia|exact HL| |exact F2|exact F3| |congruence|exact F6| |exact Hnext].
      * change o with (olist (@None (list word)) ++ o). eapply exec_step; [exact HT|exact F1].
      * eapply below_trans; [exact B1|exact F4].
      * intros ws Hws Hend. destruct (F8 ws Hws) as (w1 & Hw1 & ->). assert (nth_error A i = Some w) by apply Hat.
        replace (nt - 1) with i in Hw1 by lia. assert (w1 = w) by congruence. subst w1. rewrite <- app_assoc. reflexivity.
    + destruct (from_dead p (S r) w Elv) as [D1 D2]. rewrite andb_false_r, orb_false_r in HT. cbn [andb] in HT.
      eapply (word_done p (S r) i w Ls part [] _ None Ls1); [exact Hd|exact Hat|lia|exact HL|constructor| |rewrite D1; reflexivity|exact B1|exact L1|exact R1| |exact Hnext].
      * rewrite D2, orb_false_r. exact HT.
      * discriminate.
Qed.

(** The whole phase. *)
Lemma phase_spec Ls part w0 : 0 < d -> d < length Ls -> rowsized Ls -> nth_error A 0 = Some w0 ->
  nth_error Ls 0 = Some (mkLayer 0 (w_tranche w0) (rows [])) ->
  exists out s1 res Ls', exec (St Ls 0 part) out s1 /\
    turn s1 = bind (next_phase A ph q Ls' (part || existsb live (tuples at_words d))) (after res) /\
    out ++ olist res = sel (tuples at_words d) /\ length Ls' = length Ls /\ rowsized Ls' /\
    (forall l, nth_error Ls' 0 = Some l -> l_rows l = rows []) /\
    (forall ws, res = Some ws -> exists w, nth_error A (nt - 1) = Some w /\ ws = repeat w d).
Proof.
  intros Hd HL Hrs Hw0 Hl0. destruct d as [|r] eqn:Ed; [lia|].
  assert (HE : enum [] 0 r = tuples at_words (S r)).
  { unfold enum. cbn [skipn tuples]. reflexivity. }
  destruct (level r [] ltac:(cbn; lia) (nt - 1) 0 w0 Ls part) as (out & s1 & res & Ls' & H1 & H2 & H3 & H4 & H5 & H6 & H7 & H8); auto; [lia| |lia|].
  - split; [intros j w Hj; destruct j; discriminate|]. split; [exact Hw0|]. cbn [length app]. rewrite Hl0. unfold maxt. cbn [map]. 
    cbn [fold_right]. rewrite Nat.max_0_r. reflexivity.
  - cbn [length] in *. rewrite HE in H2, H3. exists out, s1, res, Ls'. repeat split; auto.
Qed.
End phase.

(** ** The queue *)
(** Words of one tranche and below. *)
Definition words_of (t : nat) : list word := filter (fun w => w_tranche w <=? t) A.
Definition phase_out (ph : phase) : list (list word) :=
  filter (fun s => okp s && (maxt s =? tranche ph)) (tuples (words_of (tranche ph)) (depth ph)).
End dfs.

Lemma sorted_tail a A : sorted_words (a :: A) -> sorted_words A.
Proof. intros H i j x y Hij Hx Hy. apply (H (S i) (S j) x y); [lia|exact Hx|exact Hy]. Qed.
Lemma sorted_cut A t : sorted_words A ->
  firstn (length (words_of A t)) A = words_of A t /\
  forall i w, nth_error A i = Some w -> (i < length (words_of A t) <-> w_tranche w <= t).
Proof.
  unfold words_of. induction A as [|a A IH]; intros Hs.
  - split; [reflexivity|]. intros [|i] w H; discriminate.
  - destruct (IH (sorted_tail _ _ Hs)) as [H1 H2]. cbn [filter]. destruct (Nat.leb_spec (w_tranche a) t) as [Ha|Ha].
    + cbn [length firstn]. split; [f_equal; exact H1|]. intros [|i] w Hw; cbn in Hw.
      * injection Hw as <-. split; intros; [exact Ha|lia].
      * rewrite <- (H2 i w Hw). split; lia.
    + assert (Hnil : filter (fun w => w_tranche w <=? t) A = []).
      { apply filter_none. intros x Hx. apply In_nth_error in Hx. destruct Hx as (j & Hj). apply Nat.leb_gt.
        pose proof (Hs 0 (S j) a x ltac:(lia) eq_refl Hj). lia. }
      rewrite Hnil. cbn [length firstn]. split; [reflexivity|]. intros i w Hw. split; [lia|].
      pose proof (Hs 0 i a w ltac:(lia) eq_refl Hw). lia.
Qed.
Lemma in_tuples {X} (l : list X) k s : In s (tuples l k) <-> length s = k /\ Forall (fun x => In x l) s.
Proof.
  revert s. induction k as [|k IH]; intros s; cbn [tuples].
  - cbn. split; [intros [<-|[]]; auto|]. intros [H _]. destruct s; [auto|discriminate].
  - rewrite in_flat_map. split.
    + intros (w & Hw & H). apply in_map_iff in H. destruct H as (s' & <- & Hs'). apply IH in Hs'. destruct Hs' as [H1 H2]. cbn. split; [congruence|constructor; auto].
    + intros [H1 H2]. destruct s as [|w s]; [discriminate|]. inversion H2; subst. exists w. split; [assumption|]. apply in_map. apply IH. cbn in H1. split; [lia|assumption].
Qed.
Lemma flat_map_filter {X Y} (f : X -> list Y) g l : (forall x, In x l -> g x = false -> f x = []) -> flat_map f (filter g l) = flat_map f l.
Proof.
  induction l as [|x l IH]; intros H; [reflexivity|]. cbn [filter flat_map].
  assert (IH' := IH (fun y Hy => H y (or_intror Hy))). destruct (g x) eqn:E; cbn [flat_map]; rewrite IH'; [reflexivity|].
  rewrite (H x (or_introl eq_refl) E). reflexivity.
Qed.

Lemma filter_len {X} (f : X -> bool) l : length (filter f l) <= length l.
Proof. induction l as [|x l IH]; [cbn; lia|]. cbn. destruct (f x); cbn; lia. Qed.

Section queue.
Variable A : list word.
Variable PT : list (phrase_matcher * (word -> table)).
Hypothesis HPT : forall pm tbl, In (pm, tbl) PT -> 0 < fuzz_limit pm /\
  forall wi w, nth_error A wi = Some w -> forall prev nxt, step_by_word_index pm wi prev nxt = Ok (step (fuzz_limit pm) (tbl w) prev nxt).
Hypothesis Hsort : sorted_words A.
Variable sz : list N.

Definition phase_fits (n : nat) (ph : phase) : Prop := 0 < depth ph < n /\ words_of A (tranche ph) <> [].
Lemma queue_spec : forall n q Ls w0, length q <= n -> q <> [] -> Forall (phase_fits (length Ls)) q -> rowsized PT Ls ->
  nth_error A 0 = Some w0 -> nth_error Ls 0 = Some (mkLayer 0 (w_tranche w0) (rows PT [])) ->
  exists out s1 res, exec (mkPS (map fst PT) A q Ls 0 false sz) out s1 /\ turn s1 = Ok (None, res) /\
    out ++ olist res = flat_map (phase_out A PT) q /\
    (forall ws, res = Some ws -> exists w d, In w A /\ ws = repeat w d).
Proof.
  induction n as [|n IH]; intros q Ls w0 Hn Hne Hfit Hrs Hw0 Hl0; [destruct q; [congruence|cbn in Hn; lia]|].
  destruct q as [|ph q]; [congruence|]. inversion Hfit as [|? ? [Hd Hwne] Hfit']; subst.
  destruct (sorted_cut A (tranche ph) Hsort) as [Hcut Hnt].
  assert (Hnt0 : 0 < length (words_of A (tranche ph)) <= length A).
  { split; [destruct (words_of A (tranche ph)); [congruence|cbn; lia]|]. rewrite <- Hcut at 1. rewrite firstn_length. lia. }
  destruct (phase_spec A PT HPT Hsort ph q sz (length (words_of A (tranche ph))) Hnt Hnt0 Ls false w0)
    as (out & s1 & res & Ls' & E1 & E2 & E3 & E4 & E5 & E6 & E7); auto; try lia.
  unfold at_words in E2, E3. rewrite Hcut in E2, E3. cbn [orb] in E2. unfold sel in E3. fold (phase_out A PT ph) in E3.
  set (lv := existsb (live PT) (tuples (words_of A (tranche ph)) (depth ph))) in *.
  set (q' := if lv then q else filter (fun p => (tranche ph <? tranche p) || (depth p <? depth ph)) q).
  assert (Hq' : flat_map (phase_out A PT) q' = flat_map (phase_out A PT) q).
  { unfold q'. destruct lv eqn:Elv; [reflexivity|]. apply flat_map_filter. intros p Hp Hg. apply orb_false_iff in Hg. destruct Hg as [G1 G2].
    apply Nat.ltb_ge in G1, G2. apply filter_none. intros s Hs. apply in_tuples in Hs. destruct Hs as [L1 L2].
    destruct (okp PT s) eqn:Eo; [|reflexivity]. exfalso. apply ok_live in Eo. rewrite <- (firstn_skipn (depth ph) s) in Eo. apply live_app in Eo.
    assert (Ht : lv = true); [|congruence]. apply existsb_exists. exists (firstn (depth ph) s). split; [|exact Eo]. apply in_tuples.
    split; [rewrite firstn_length; lia|]. apply Forall_forall. intros x Hx. rewrite Forall_forall in L2.
    assert (Hxs : In x s) by (rewrite <- (firstn_skipn (depth ph) s); apply in_or_app; left; exact Hx).
    specialize (L2 x Hxs). unfold words_of in L2 |- *. apply filter_In in L2. destruct L2 as [L2 L3]. apply filter_In. split; [exact L2|].
    apply Nat.leb_le in L3. apply Nat.leb_le. lia. }
  assert (HN : next_phase A ph (ph :: q) Ls' lv = match q' with [] => Ok None | _ => do l0 <- index Ls' 0; do w0 <- index A 0;
      Ok (Some (q', upd Ls' 0 (mkLayer 0 (w_tranche w0) (l_rows l0)), 0, false)) end) by reflexivity.
  rewrite HN in E2. clear HN.
  assert (Hlast : forall ws, res = Some ws -> exists w d, In w A /\ ws = repeat w d).
  { intros ws Hws. destruct (E7 ws Hws) as (w & Hw & ->). exists w, (depth ph). split; [eapply nth_error_In; eauto|reflexivity]. }
  destruct q' as [|ph' q2] eqn:Eq.
  - exists out, s1, res. split; [exact E1|]. split; [exact E2|]. split; [|exact Hlast]. cbn [flat_map]. rewrite <- Hq', E3. cbn. rewrite app_nil_r. reflexivity.
  - rewrite <- Eq in *. destruct (nth_some Ls' 0) as (l0 & Hl); [rewrite E4; lia|]. unfold index in E2. rewrite Hl, Hw0 in E2. cbn [bind after] in E2.
    rewrite (E6 l0 Hl) in E2.
    destruct (IH q' (upd Ls' 0 (mkLayer 0 (w_tranche w0) (rows PT []))) w0) as (out2 & s2 & res2 & F1 & F2 & F3 & F4); auto.
    + unfold q'. destruct lv; [cbn in Hn; lia|].
      assert (Hle : length (filter (fun p => (tranche ph <? tranche p) || (depth p <? depth ph)) q) <= length q) by apply filter_len. cbn in Hn. lia.
    + congruence.
    + rewrite upd_length, E4. unfold q'. destruct lv; [exact Hfit'|]. rewrite Forall_forall in *. intros p Hp. apply filter_In in Hp. apply Hfit', Hp.
    + apply rowsized_upd; [exact E5|apply rows_length].
    + apply nth_upd_same. rewrite E4. lia.
    + exists (out ++ olist res ++ out2), s2, res2. split; [eapply exec_trans; [exact E1|]; eapply exec_step; [exact E2|exact F1]|].
      split; [exact F2|]. split; [|exact F4]. cbn [flat_map]. rewrite <- Hq', <- F3, <- E3, <- !app_assoc. reflexivity.
Qed.
End queue.
