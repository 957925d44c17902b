(** Cutting a pattern at a class, continued: [build_states] (expression.rs:86-193) does the same thing
    behind any states, so the automaton of the whole pattern is glued from those of its parts. *)
From Verif Require Export GlueSafe.

Section Shift.
Context (d p : nat) (st0 st0' : list state) (P1 : 1 <= p) (L0 : length st0 = p) (L1 : length st0' = d + p).

Definition sh (x : state) : state := mkState (N.shiftl (eps x) (N.of_nat d)) (chars x) (if next x =? 0 then 0 else d + next x).
Definition inv (x : state) : Prop := ((next x = 0 /\ chars x = EMPTY) \/ p <= next x) /\ forall j, mem (eps x) j = true -> p <= j.
Definition rel (s s' : list state) : Prop := exists l, s = st0 ++ l /\ s' = st0' ++ map sh l /\ Forall inv l.

Lemma mem_shl m j : mem (N.shiftl m (N.of_nat d)) j = (d <=? j) && mem m (j - d).
Proof. clear P1 L0 L1.
  unfold mem. destruct (Nat.leb_spec d j) as [H|H].
  - rewrite N.shiftl_spec_high' by lia. cbn [andb]. f_equal. lia.
  - rewrite N.shiftl_spec_low by lia. reflexivity.
Qed.
Lemma mem_shl_d m j : mem (N.shiftl m (N.of_nat d)) (d + j) = mem m j.
Proof. clear P1 L0 L1. rewrite mem_shl. replace (d <=? d + j) with true by (symmetry; apply Nat.leb_le; lia). cbn [andb]. f_equal. lia. Qed.
Lemma ins_shl m j : ins (N.shiftl m (N.of_nat d)) (d + j) = N.shiftl (ins m j) (N.of_nat d).
Proof. clear P1 L0 L1.
  apply mem_ext. intros k. rewrite mem_ins, !mem_shl, mem_ins.
  destruct (Nat.leb_spec d k) as [H|H]; cbn [andb].
  - f_equal. apply eq_true_iff_eq. rewrite !Nat.eqb_eq. lia.
  - replace (d + j =? k) with false by (symmetry; apply Nat.eqb_neq; lia). rewrite ?orb_false_r. 
    try replace (k =? d + j) with false by (symmetry; apply Nat.eqb_neq; lia). reflexivity.
Qed.
Lemma rem_shl m j : rem (N.shiftl m (N.of_nat d)) (d + j) = N.shiftl (rem m j) (N.of_nat d).
Proof. clear P1 L0 L1.
  apply mem_ext. intros k. rewrite mem_rem, !mem_shl, mem_rem.
  destruct (Nat.leb_spec d k) as [H|H]; cbn [andb]; [|try (rewrite andb_false_r; reflexivity); reflexivity].
  f_equal. f_equal. apply eq_true_iff_eq. rewrite !Nat.eqb_eq. lia.
Qed.

Lemma rel_len s s' : rel s s' -> p <= length s /\ length s' = d + length s.
Proof. intros (l & -> & -> & _). rewrite !app_length, map_length. lia. Qed.
Lemma rel_index s s' i x x' : rel s s' -> p <= i -> index s i = Ok x -> index s' (d + i) = Ok x' -> x' = sh x /\ inv x.
Proof.
  intros (l & -> & -> & Hl) Hi Hx Hx'. apply index_Ok in Hx, Hx'. rewrite nth_error_app2 in Hx, Hx' by lia.
  replace (d + i - length st0') with (i - length st0) in Hx' by lia. rewrite nth_error_map, Hx in Hx'. cbn [option_map] in Hx'.
  injection Hx' as <-. split; [reflexivity|]. rewrite Forall_forall in Hl. apply Hl. eapply nth_error_In. exact Hx.
Qed.
Lemma rel_upd s s' i x : rel s s' -> p <= i -> inv x -> rel (upd s i x) (upd s' (d + i) (sh x)).
Proof.
  intros (l & -> & -> & Hl) Hi Hx. exists (upd l (i - p) x).
  replace i with (length st0 + (i - p)) at 1 by lia. rewrite upd_app2. split; [reflexivity|].
  replace (d + i) with (length st0' + (i - p)) by lia. rewrite upd_app2, map_upd. split; [reflexivity|].
  apply Forall_upd; assumption.
Qed.
Lemma rel_push s s' x : rel s s' -> inv x -> rel (s ++ [x]) (s' ++ [sh x]).
Proof.
  intros (l & -> & -> & Hl) Hx. exists (l ++ [x]). rewrite map_app, !app_assoc. split; [reflexivity|]. split; [reflexivity|].
  apply Forall_app. split; [exact Hl|]. constructor; [exact Hx|constructor].
Qed.
Lemma sh_new : sh state_new = state_new.
Proof. unfold sh, state_new, new_transition. cbn [eps chars next]. rewrite N.shiftl_0_l. reflexivity. Qed.
Lemma inv_new : inv state_new.
Proof. split; [left; split; reflexivity|]. intros j Hj. change (eps state_new) with 0%N in Hj. rewrite mem_0 in Hj. discriminate. Qed.
Lemma rel_new s s' : rel s s' -> rel (s ++ [state_new]) (s' ++ [state_new]).
Proof. intros H. rewrite <- sh_new at 2. apply rel_push; [exact H|apply inv_new]. Qed.
Lemma rel_ins nb s s' i j t t' : rel s s' -> p <= i -> p <= j -> insert_eps nb s i j = Ok t -> insert_eps nb s' (d + i) (d + j) = Ok t' -> rel t t'.
Proof.
  intros H Hi Hj Ht Ht'. unfold insert_eps in Ht, Ht'.
  apply bind_Ok in Ht. destruct Ht as (x & Hx & Ht). apply bind_Ok in Ht. destruct Ht as (u & _ & Ht). injection Ht as <-.
  apply bind_Ok in Ht'. destruct Ht' as (x' & Hx' & Ht'). apply bind_Ok in Ht'. destruct Ht' as (u' & _ & Ht'). injection Ht' as <-.
  destruct (rel_index _ _ _ _ _ H Hi Hx Hx') as [-> [I1 I2]].
  replace (set_eps (sh x) (ins (eps (sh x)) (d + j))) with (sh (set_eps x (ins (eps x) j))).
  - apply rel_upd; [exact H|exact Hi|]. split; [exact I1|]. unfold set_eps. cbn [eps]. intros k Hk. rewrite mem_ins in Hk.
    apply orb_true_iff in Hk. destruct Hk as [Hk|Hk]; [apply Nat.eqb_eq in Hk; lia|auto].
  - unfold sh, set_eps. cbn [eps chars next]. rewrite ins_shl. reflexivity.
Qed.

Definition same (es es' : list nat) : Prop := es' = map (Nat.add d) es /\ Forall (fun e => p <= e) es.
Definition follows (f : list state -> outcome (list state)) : Prop :=
  forall s s' t t', rel s s' -> f s = Ok t -> f s' = Ok t' -> rel t t'.

Lemma branches_rel build k l : p <= k ->
  Forall (fun a => follows (build a)) l ->
  forall s s' es es' t t' fs fs', rel s s' -> same es es' ->
    foldM (branch_step build k) l (s, es) = Ok (t, fs) -> foldM (branch_step build (d + k)) l (s', es') = Ok (t', fs') ->
    p < length s -> (forall a s t, In a l -> build a s = Ok t -> length s <= length t) -> rel t t' /\ same fs fs'.
Proof.
  intros Hk. induction 1 as [|a l Ha _ IH]; intros s s' es es' t t' fs fs' H He Ht Ht' Hp Hm; cbn [foldM] in Ht, Ht'.
  - injection Ht as <- <-. injection Ht' as <- <-. auto.
  - apply bind_Ok in Ht. destruct Ht as ([u us] & Hu & Ht). apply bind_Ok in Ht'. destruct Ht' as ([u' us'] & Hu' & Ht').
    unfold branch_step in Hu, Hu'.
    apply bind_Ok in Hu. destruct Hu as (s1 & S1 & Hu). apply bind_Ok in Hu. destruct Hu as (s2 & S2 & Hu). apply bind_Ok in Hu. destruct Hu as (e & S3 & Hu). injection Hu as <- <-.
    apply bind_Ok in Hu'. destruct Hu' as (s1' & S1' & Hu'). apply bind_Ok in Hu'. destruct Hu' as (s2' & S2' & Hu'). apply bind_Ok in Hu'. destruct Hu' as (e' & S3' & Hu'). injection Hu' as <- <-.
    pose proof (rel_len _ _ H) as [Q1 Q2]. rewrite Q2 in S1'. pose proof (rel_ins _ _ _ _ _ _ _ H Hk Q1 S1 S1') as R1.
    pose proof (Ha _ _ _ _ R1 S2 S2') as R2. pose proof (rel_len _ _ R2) as [Q3 Q4].
    assert (L2 : length s1 = length s).
    { unfold insert_eps in S1. apply bind_Ok in S1. destruct S1 as (x & _ & S1). apply bind_Ok in S1. destruct S1 as (v & _ & S1). injection S1 as <-. apply upd_length. }
    pose proof (Hm a _ _ (or_introl eq_refl) S2) as L3.
    unfold checked_sub in S3, S3'. destruct (1 <=? length s2) eqn:C1; [|discriminate]. destruct (1 <=? length s2') eqn:C2; [|discriminate].
    injection S3 as <-. injection S3' as <-.
    eapply IH; [exact R2| |exact Ht|exact Ht'|lia|intros b x y Hb; apply Hm; right; exact Hb].
    destruct He as [-> He]. split; [rewrite map_app; cbn [map]; f_equal; f_equal; lia|]. apply Forall_app. split; [exact He|]. constructor; [lia|constructor].
Qed.
Lemma repoint_rel n es es' : p <= n -> same es es' -> forall s s' t t', rel s s' ->
  foldM (repoint n) es s = Ok t -> foldM (repoint (d + n)) es' s' = Ok t' -> rel t t'.
Proof.
  intros Hn [-> He]. induction He as [|e es He _ IH]; intros s s' t t' H Ht Ht'; cbn [foldM map] in Ht, Ht'.
  - injection Ht as <-. injection Ht' as <-. exact H.
  - apply bind_Ok in Ht. destruct Ht as (u & Hu & Ht). apply bind_Ok in Ht'. destruct Ht' as (u' & Hu' & Ht'). eapply IH; [|exact Ht|exact Ht'].
    unfold repoint in Hu, Hu'.
    apply bind_Ok in Hu. destruct Hu as (x & S1 & Hu). apply bind_Ok in Hu. destruct Hu as (v & _ & Hu). apply bind_Ok in Hu. destruct Hu as (y & S2 & Hu). injection Hu as <-.
    apply bind_Ok in Hu'. destruct Hu' as (x' & S1' & Hu'). apply bind_Ok in Hu'. destruct Hu' as (v' & _ & Hu'). apply bind_Ok in Hu'. destruct Hu' as (y' & S2' & Hu'). injection Hu' as <-.
    destruct (rel_index _ _ _ _ _ H He S1 S1') as [-> [I1 I2]].
    assert (Hn0 : n <> 0) by lia.
    assert (Hm : mem (eps (sh x)) (d + e + 1) = mem (eps x) (e + 1)).
    { rewrite <- Nat.add_assoc. apply mem_shl_d. }
    rewrite Hm in S2'. destruct (mem (eps x) (e + 1)).
    + apply bind_Ok in S2. destruct S2 as (? & _ & S2). injection S2 as <-. apply bind_Ok in S2'. destruct S2' as (? & _ & S2'). injection S2' as <-.
      match goal with |- rel (upd s e ?a) (upd s' _ ?b) => replace b with (sh a) end.
      * apply rel_upd; [exact H|exact He|]. split; [right; exact Hn|]. unfold set_next, set_eps. cbn [eps]. intros j Hj. rewrite mem_ins, mem_rem in Hj.
        apply orb_true_iff in Hj. destruct Hj as [Hj|Hj]; [apply Nat.eqb_eq in Hj; lia|apply andb_true_iff in Hj; apply I2; apply Hj].
      * unfold sh, set_next, set_eps. cbn [eps chars next]. rewrite <- Nat.add_assoc, rem_shl, ins_shl. destruct (Nat.eqb_spec n 0); [lia|reflexivity].
    + injection S2 as <-. injection S2' as <-.
      match goal with |- rel (upd s e ?a) (upd s' _ ?b) => replace b with (sh a) end.
      * apply rel_upd; [exact H|exact He|]. split; [right; exact Hn|]. exact I2.
      * unfold sh, set_next. cbn [eps chars next]. destruct (Nat.eqb_spec n 0); [lia|reflexivity].
Qed.
Lemma exits_rel n es es' : p <= n -> same es es' -> forall s s' t t', rel s s' ->
  foldM (add_exit n) es s = Ok t -> foldM (add_exit (d + n)) es' s' = Ok t' -> rel t t'.
Proof.
  intros Hn [-> He]. induction He as [|e es He _ IH]; intros s s' t t' H Ht Ht'; cbn [foldM map] in Ht, Ht'.
  - injection Ht as <-. injection Ht' as <-. exact H.
  - apply bind_Ok in Ht. destruct Ht as (u & Hu & Ht). apply bind_Ok in Ht'. destruct Ht' as (u' & Hu' & Ht'). eapply IH; [|exact Ht|exact Ht'].
    unfold add_exit in Hu, Hu'.
    apply bind_Ok in Hu. destruct Hu as (x & S1 & Hu). apply bind_Ok in Hu. destruct Hu as (v & _ & Hu). apply bind_Ok in Hu. destruct Hu as (y & S2 & Hu).
    apply bind_Ok in Hu'. destruct Hu' as (x' & S1' & Hu'). apply bind_Ok in Hu'. destruct Hu' as (v' & _ & Hu'). apply bind_Ok in Hu'. destruct Hu' as (y' & S2' & Hu').
    destruct (rel_index _ _ _ _ _ H He S1 S1') as [-> [I1 I2]].
    assert (Hm : mem (eps (sh x)) (d + e + 1) = mem (eps x) (e + 1)).
    { rewrite <- Nat.add_assoc. apply mem_shl_d. }
    rewrite Hm in S2'.
    assert (R1 : rel y y').
    { destruct (mem (eps x) (e + 1)); [exact (rel_ins _ _ _ _ _ _ _ H He Hn S2 S2')|injection S2 as <-; injection S2' as <-; exact H]. }
    change (chars (sh x)) with (chars x) in Hu'. destruct (N.eqb_spec (chars x) EMPTY) as [Hc|Hc]; [injection Hu as <-; injection Hu' as <-; exact R1|].
    assert (Hx : p <= next x) by (destruct I1 as [[_ I1]|I1]; [contradiction|exact I1]).
    assert (Hx' : next (sh x) = d + next x) by (cbn [sh next]; destruct (Nat.eqb_spec (next x) 0); [lia|reflexivity]).
    rewrite Hx' in Hu'. replace (d + next x =? d + n) with (next x =? n) in Hu' by (apply eq_true_iff_eq; rewrite !Nat.eqb_eq; lia).
    destruct (next x =? n); [injection Hu as <-; injection Hu' as <-; exact R1|]. exact (rel_ins _ _ _ _ _ _ _ R1 Hx Hn Hu Hu').
Qed.
Lemma repeats_rel ovf build a mn mx k l : p <= k -> follows (build a) ->
  forall s s' q q' t t' r r', rel s s' -> p <= q /\ q' = d + q \/ l <> [] ->
    foldM (repeat_step ovf build k a mn mx) l (s, q) = Ok (t, r) -> foldM (repeat_step ovf build (d + k) a mn mx) l (s', q') = Ok (t', r') ->
    rel t t' /\ p <= r /\ r' = d + r.
Proof.
  intros Hk Ha. induction l as [|i l IH]; intros s s' q q' t t' r r' H Hq Ht Ht'; cbn [foldM] in Ht, Ht'.
  - injection Ht as <- <-. injection Ht' as <- <-. split; [exact H|]. destruct Hq as [Hq|Hq]; [exact Hq|contradiction].
  - apply bind_Ok in Ht. destruct Ht as ([u v] & Hu & Ht). apply bind_Ok in Ht'. destruct Ht' as ([u' v'] & Hu' & Ht').
    unfold repeat_step in Hu, Hu'.
    apply bind_Ok in Hu. destruct Hu as (en & S0 & Hu). apply bind_Ok in Hu. destruct Hu as (s1 & S1 & Hu). apply bind_Ok in Hu. destruct Hu as (s2 & S2 & Hu). injection Hu as <- <-.
    apply bind_Ok in Hu'. destruct Hu' as (en' & S0' & Hu'). rewrite S0 in S0'. injection S0' as <-.
    apply bind_Ok in Hu'. destruct Hu' as (s1' & S1' & Hu'). apply bind_Ok in Hu'. destruct Hu' as (s2' & S2' & Hu'). injection Hu' as <- <-.
    pose proof (rel_len _ _ H) as [Q1 Q2]. rewrite Q2 in S1'.
    assert (R1 : rel s1 s1').
    { destruct en; [exact (rel_ins _ _ _ _ _ _ _ H Hk Q1 S1 S1')|injection S1 as <-; injection S1' as <-; exact H]. }
    eapply IH; [exact (Ha _ _ _ _ R1 S2 S2')|left; apply (rel_len _ _ R1)|exact Ht|exact Ht'].
Qed.
End Shift.

Lemma insert_len nb s i j t : insert_eps nb s i j = Ok t -> length t = length s.
Proof. unfold insert_eps. intros S1. apply bind_Ok in S1. destruct S1 as (x & _ & S1). apply bind_Ok in S1. destruct S1 as (v & _ & S1). injection S1 as <-. apply upd_length. Qed.
Lemma repoint_len n es : forall s t, foldM (repoint n) es s = Ok t -> length t = length s.
Proof.
  induction es as [|e es IH]; intros s t H; cbn [foldM] in H; [injection H as <-; reflexivity|].
  apply bind_Ok in H. destruct H as (u & Hu & H). rewrite (IH _ _ H). unfold repoint in Hu.
  apply bind_Ok in Hu. destruct Hu as (x & _ & Hu). apply bind_Ok in Hu. destruct Hu as (v & _ & Hu). apply bind_Ok in Hu. destruct Hu as (y & _ & Hu). injection Hu as <-. apply upd_length.
Qed.
Lemma exit_len n es : forall s t, foldM (add_exit n) es s = Ok t -> length t = length s.
Proof.
  induction es as [|e es IH]; intros s t H; cbn [foldM] in H; [injection H as <-; reflexivity|].
  apply bind_Ok in H. destruct H as (u & Hu & H). rewrite (IH _ _ H). unfold add_exit in Hu.
  apply bind_Ok in Hu. destruct Hu as (x & _ & Hu). apply bind_Ok in Hu. destruct Hu as (v & _ & Hu). apply bind_Ok in Hu. destruct Hu as (y & Hy & Hu).
  assert (Ly : length y = length s) by (destruct (mem _ _); [exact (insert_len _ _ _ _ _ Hy)|injection Hy as <-; reflexivity]).
  destruct (N.eqb _ _); [injection Hu as <-; exact Ly|]. destruct (_ =? _); [injection Hu as <-; exact Ly|]. rewrite (insert_len _ _ _ _ _ Hu). exact Ly.
Qed.
Lemma branch_len build k l : Forall (fun a => forall s t, build a s = Ok t -> length s <= length t) l ->
  forall s es t fs, foldM (branch_step build k) l (s, es) = Ok (t, fs) -> length s <= length t.
Proof.
  induction 1 as [|a l Ha _ IH]; intros s es t fs H; cbn [foldM] in H; [injection H as <- _; lia|].
  apply bind_Ok in H. destruct H as ([u v] & Hu & H). apply IH in H. unfold branch_step in Hu.
  apply bind_Ok in Hu. destruct Hu as (s1 & S1 & Hu). apply bind_Ok in Hu. destruct Hu as (s2 & S2 & Hu). apply bind_Ok in Hu. destruct Hu as (e & _ & Hu). injection Hu as <- _.
  apply insert_len in S1. apply Ha in S2. lia.
Qed.
Lemma repeat_len ovf build a mn mx k l : (forall s t, build a s = Ok t -> length s <= length t) ->
  forall s q t r, foldM (repeat_step ovf build k a mn mx) l (s, q) = Ok (t, r) -> length s <= length t.
Proof.
  intros Ha. induction l as [|i l IH]; intros s q t r H; cbn [foldM] in H; [injection H as <- _; lia|].
  apply bind_Ok in H. destruct H as ([u v] & Hu & H). apply IH in H. unfold repeat_step in Hu.
  apply bind_Ok in Hu. destruct Hu as (en & _ & Hu). apply bind_Ok in Hu. destruct Hu as (s1 & S1 & Hu). apply bind_Ok in Hu. destruct Hu as (s2 & S2 & Hu). injection Hu as <- _.
  apply Ha in S2. destruct en; [apply insert_len in S1; lia|injection S1 as <-; lia].
Qed.
(** The two cases of [Repetition] that are not a loop, and the loop. *)
Definition rep_loop (ovf : bool) (t : ast) (mn : nat) (mx : option nat) (st : list state) : outcome (list state) :=
  do (st1, final_term_index) <-
    foldM (repeat_step ovf (build_states ovf) (length st) t mn mx) (seq 0 (Nat.max 1 (Nat.max mn (match mx with Some m => m | None => mn end)))) (st ++ [state_new], 0);
  let final_index := length st1 in
  do st2 <- insert_eps max_blocks (st1 ++ [state_new]) final_index (final_index + 1);
  do st3 <- (if mn =? 0 then insert_eps max_blocks st2 (length st) final_index else Ok st2);
  match mx with
  | None => insert_eps max_blocks st3 final_index final_term_index
  | Some _ => Ok st3
  end.
Lemma rep_cases ovf t mn mx : (forall st, build_states ovf (Repetition t mn mx) st = Ok st) \/
  (forall st, build_states ovf (Repetition t mn mx) st = build_states ovf t st) \/
  (forall st, build_states ovf (Repetition t mn mx) st = rep_loop ovf t mn mx st).
Proof.
  destruct mn as [|[|mn]].
  - destruct mx as [[|m]|]; [left|right; right|right; right]; intros st; reflexivity.
  - destruct mx as [[|[|m]]|]; [right; right|right; left|right; right|right; right]; intros st; reflexivity.
  - right; right. intros st. reflexivity.
Qed.
Lemma build_len ovf a : forall st st', build_states ovf a st = Ok st' -> length st <= length st'.
Proof.
  induction a as [cs|l IH|l IH|l IH|t mn mx IH|k b] using ast_ind'; intros st st' H.
  - cbn [build_states] in H. injection H as <-. rewrite app_length. lia.
  - cbn [build_states] in H. apply bind_Ok in H. destruct H as ([st1 es] & H1 & H). apply repoint_len in H. apply (branch_len _ _ _ IH) in H1. rewrite app_length in H1. lia.
  - cbn [build_states] in H. revert st st' H. induction IH as [|a l Ha _ IH]; intros st st' H; cbn [foldM] in H; [injection H as <-; lia|].
    apply bind_Ok in H. destruct H as (u & Hu & H). apply Ha in Hu. apply IH in H. lia.
  - cbn [build_states] in H. apply bind_Ok in H. destruct H as ([st1 es] & H1 & H). apply exit_len in H. apply (branch_len _ _ _ IH) in H1. rewrite app_length in H1. lia.
  - destruct (rep_cases ovf t mn mx) as [E|[E|E]]; rewrite E in H; [injection H as <-; lia|apply IH; exact H|].
    unfold rep_loop in H. apply bind_Ok in H. destruct H as ([st1 q] & H1 & H). cbv zeta in H. apply (repeat_len _ _ _ _ _ _ _ IH) in H1. rewrite app_length in H1.
    apply bind_Ok in H. destruct H as (st2 & H2 & H). apply insert_len in H2. rewrite app_length in H2. apply bind_Ok in H. destruct H as (st3 & H3 & H).
    assert (L3 : length st3 = length st2) by (destruct (mn =? 0); [exact (insert_len _ _ _ _ _ H3)|injection H3 as <-; reflexivity]).
    destruct mx; [injection H as <-; lia|apply insert_len in H; lia].
  - discriminate.
Qed.

Lemma build_rel d p st0 st0' ovf a : 1 <= p -> length st0 = p -> length st0' = d + p -> follows d p st0 st0' (build_states ovf a).
Proof.
  intros P1 L0 L1. induction a as [cs|l IH|l IH|l IH|t mn mx IH|k b] using ast_ind'; intros s s' u u' H Hu Hu'; pose proof (rel_len d p _ _ P1 L0 L1 _ _ H) as [Q1 Q2].
  - cbn [build_states] in Hu, Hu'. injection Hu as <-. injection Hu' as <-.
    replace (new_transition cs (length s' + 1)) with (sh d (new_transition cs (length s + 1))).
    + apply rel_push; [exact H|]. split; [right; cbn [new_transition next]; lia|]. intros j Hj. cbn [new_transition eps] in Hj. rewrite mem_0 in Hj. discriminate.
    + unfold sh, new_transition. cbn [eps chars next]. rewrite N.shiftl_0_l, Q2. destruct (Nat.eqb_spec (length s + 1) 0); [lia|]. f_equal. lia.
  - cbn [build_states] in Hu, Hu'. apply bind_Ok in Hu. destruct Hu as ([v es] & Hv & Hu). apply bind_Ok in Hu'. destruct Hu' as ([v' es'] & Hv' & Hu').
    rewrite Q2 in Hv'.
    assert (R1 : rel d p st0 st0' v v' /\ same d p es es').
    { eapply branches_rel; [exact P1|exact L0|exact L1|exact Q1|exact IH|apply rel_new; exact H| |exact Hv|exact Hv'|rewrite app_length; cbn [length]; lia|intros; eapply build_len; eassumption].
      split; [reflexivity|constructor]. }
    destruct R1 as [R1 R2]. pose proof (rel_len d p _ _ P1 L0 L1 _ _ R1) as [Q3 Q4]. rewrite Q4 in Hu'. eapply repoint_rel; [exact P1|exact L0|exact L1|exact Q3|exact R2|exact R1|exact Hu|exact Hu'].
  - cbn [build_states] in Hu, Hu'. clear Q1 Q2. revert s s' H u u' Hu Hu'. induction IH as [|a l Ha _ IH]; intros s s' H u u' Hu Hu'; cbn [foldM] in Hu, Hu'.
    + injection Hu as <-. injection Hu' as <-. exact H.
    + apply bind_Ok in Hu. destruct Hu as (v & Hv & Hu). apply bind_Ok in Hu'. destruct Hu' as (v' & Hv' & Hu').
      eapply IH; [exact (Ha _ _ _ _ H Hv Hv')|exact Hu|exact Hu'].
  - cbn [build_states] in Hu, Hu'. apply bind_Ok in Hu. destruct Hu as ([v es] & Hv & Hu). apply bind_Ok in Hu'. destruct Hu' as ([v' es'] & Hv' & Hu').
    rewrite Q2 in Hv'.
    assert (R1 : rel d p st0 st0' v v' /\ same d p es es').
    { eapply branches_rel; [exact P1|exact L0|exact L1|exact Q1|exact IH|apply rel_new; exact H| |exact Hv|exact Hv'|rewrite app_length; cbn [length]; lia|intros; eapply build_len; eassumption].
      split; [reflexivity|constructor]. }
    destruct R1 as [R1 R2]. pose proof (rel_len d p _ _ P1 L0 L1 _ _ R1) as [Q3 Q4]. rewrite Q4 in Hu'. eapply exits_rel; [exact P1|exact L0|exact L1|exact Q3|exact R2|exact R1|exact Hu|exact Hu'].
  - destruct (rep_cases ovf t mn mx) as [E|[E|E]]; rewrite E in Hu, Hu'; [injection Hu as <-; injection Hu' as <-; exact H|exact (IH _ _ _ _ H Hu Hu')|].
    unfold rep_loop in Hu, Hu'. apply bind_Ok in Hu. destruct Hu as ([v q] & Hv & Hu). apply bind_Ok in Hu'. destruct Hu' as ([v' q'] & Hv' & Hu'). cbv zeta in Hu, Hu'.
    rewrite Q2 in Hv'.
    assert (R1 : rel d p st0 st0' v v' /\ p <= q /\ q' = d + q).
    { eapply repeats_rel; [exact P1|exact L0|exact L1|exact Q1|exact IH|apply rel_new; exact H| |exact Hv|exact Hv'].
      right. intros Hs. apply (f_equal (@length nat)) in Hs. rewrite seq_length in Hs. cbn [length] in Hs. lia. }
    destruct R1 as (R1 & R2 & ->). pose proof (rel_len d p _ _ P1 L0 L1 _ _ R1) as [Q3 Q4]. rewrite Q4, Q2 in Hu'.
    apply bind_Ok in Hu. destruct Hu as (w & Hw & Hu). apply bind_Ok in Hu'. destruct Hu' as (w' & Hw' & Hu').
    rewrite <- Nat.add_assoc in Hw'. assert (Q5 : p <= length v + 1) by lia.
    pose proof (rel_ins d p _ _ P1 L0 L1 _ _ _ _ _ _ _ (rel_new d p st0 st0' _ _ R1) Q3 Q5 Hw Hw') as R3.
    apply bind_Ok in Hu. destruct Hu as (y & Hy & Hu). apply bind_Ok in Hu'. destruct Hu' as (y' & Hy' & Hu').
    assert (R4 : rel d p st0 st0' y y').
    { destruct (mn =? 0); [exact (rel_ins d p _ _ P1 L0 L1 _ _ _ _ _ _ _ R3 Q1 Q3 Hy Hy')|injection Hy as <-; injection Hy' as <-; exact R3]. }
    destruct mx; [injection Hu as <-; injection Hu' as <-; exact R4|]. exact (rel_ins d p _ _ P1 L0 L1 _ _ _ _ _ _ _ R4 Q3 R2 Hu Hu').
  - discriminate.
Qed.
