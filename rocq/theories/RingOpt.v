(** Automata in which the optimisation merges at most one state and nothing else. *)
From Verif Require Export GlueSafe.
From Verif Require Import WordRun.

Lemma similar_iff_uniq st i t : similar_to st i = Some t <->
    t < length st /\ i < t /\ (forall j, E st t j <-> E st i j /\ j <> i) /\ forall u, i < u < t -> ~ (forall j, E st u j <-> E st i j /\ j <> i).
  Proof.
    assert (Heq : forall u, eps (X st u) = rem (eps (X st i)) i <-> (forall j, E st u j <-> E st i j /\ j <> i)).
    { intros u. unfold E. split.
      - intros -> j. rewrite mem_rem, andb_true_iff, negb_true_iff, Nat.eqb_neq. split; intros [A B]; split; congruence.
      - intros H. apply mem_ext. intros j. apply eq_true_iff_eq. rewrite H, mem_rem, andb_true_iff, negb_true_iff, Nat.eqb_neq. split; intros [A B]; split; congruence. }
    unfold similar_to. pose proof (find_similar_spec (rem (eps (X st i)) i) i st 0) as S0. destruct (find_similar _ _ _) as [s|].
    - destruct S0 as (S1 & S2 & S3 & S4). rewrite Nat.sub_0_r in S3. pose proof (proj1 (Heq s) S3) as S5. clear S3. rename S5 into S3. split.
      + intros H. injection H as <-. split; [lia|]. split; [exact S2|]. split; [exact S3|]. intros u Hu F. apply (proj2 (Heq u)) in F. apply (S4 u); [lia|lia|]. rewrite Nat.sub_0_r. exact F.
      + intros (T1 & T2 & T3 & T4). f_equal. destruct (Nat.lt_trichotomy s t) as [C|[C|C]]; [|exact C|].
        * destruct (T4 s ltac:(lia) S3).
        * destruct (S4 t ltac:(lia) T2). rewrite Nat.sub_0_r. apply (proj2 (Heq t)). exact T3.
    - split; [discriminate|]. intros (T1 & T2 & T3 & _). destruct (S0 t ltac:(lia) T2). rewrite Nat.sub_0_r. apply (proj2 (Heq t)). exact T3.
  Qed.

Record calm (st : list state) : Prop := {
  ca_refl : forall i, i < length st -> E st i i;
  ca_trans : forall i j k, E st i j -> E st j k -> E st i k;
  ca_none : forall i i2, 1 <= i < length st -> isemp st i = true -> i2 < length st -> ~ (forall u, E st i2 u <-> E st i u /\ u <> i);
  ca_pair : forall e c, e < length st -> c < length st -> ~ pairp st e c
}.
Lemma closed_closes st : fine st -> (forall i, i < length st -> E st i i) -> (forall i j k, E st i j -> E st j k -> E st i k) -> closes st st.
Proof.
  intros F R T. split; [reflexivity|auto|]. intros i t Hi. split; [intros H; eapply re_step; [exact H|constructor]|].
  intros H. induction H as [i|i j t H1 H IH]; [auto|]. eapply T; [exact H1|]. apply IH. eapply ok_E; [exact F|exact Hi|exact H1].
Qed.
Lemma no_pairs_steps st : (forall e c, e < length st -> c < length st -> ~ pairp st e c) -> steps 0 st st.
Proof.
  intros H. assert (G : forall k i, length st <= i + k -> steps i st st); [|apply (G (length st)); lia].
  induction k as [|k IH]; intros i Hk; [apply sp_done; lia|]. destruct (Nat.le_gt_cases (length st) i) as [C|C]; [apply sp_done; exact C|].
  apply sp_skip; [exact C| |apply IH; lia]. apply fp_none. intros j Hj. apply in_seq in Hj.
  split; [destruct (pairb st i j) eqn:P|destruct (pairb st j i) eqn:P]; try reflexivity; apply pairb_iff in P; [destruct (H i j)|destruct (H j i)]; lia || exact P.
Qed.
Lemma upd_seq {A} (f : nat -> A) v k n : upd (map f (seq 0 n)) k v = map (fun u => if u =? k then v else f u) (seq 0 n).
Proof.
  assert (G : forall n a k, upd (map f (seq a n)) k v = map (fun u => if u =? a + k then v else f u) (seq a n)).
  { clear. induction n as [|n IH]; intros a k; [destruct k; reflexivity|]. cbn [seq map]. destruct k as [|k]; cbn [upd].
    - rewrite Nat.add_0_r, Nat.eqb_refl. f_equal. apply map_ext_in. intros u Hu. apply in_seq in Hu. destruct (Nat.eqb_spec u a); [lia|reflexivity].
    - destruct (Nat.eqb_spec a (a + S k)); [lia|]. f_equal. rewrite IH. apply map_ext. intros u. replace (S a + k) with (a + S k) by lia. reflexivity. }
  apply (G n 0 k).
Qed.

Section one.
  Variables (st : list state) (o t : nat).
  Hypothesis F : fine st.
  Hypothesis Ho : isemp st o = true.
  Hypothesis Ot : 1 <= o < t /\ t < length st - 1.
  Hypothesis R : forall i, i < length st -> E st i i.
  Hypothesis T : forall i j k, E st i j -> E st j k -> E st i k.
  Hypothesis Hso : similar_to st o = Some t.
  Hypothesis Hno : forall i, i <> o -> ~ E st i o.
  Hypothesis Hnone : forall i i2, 1 <= i < length st -> i <> o -> isemp st i = true -> i2 < length st -> ~ (forall u, E st i2 u <-> E st i u /\ u <> i).
  Let n := length st.
  Definition sm (u : nat) : nat := if u <? t then u else if u =? t then o else u - 1.
  Definition slot (j : nat) : nat := if j =? o then t else if j <? t then j else S j.
  Let smk k u := if o <? k then (if u =? t then o else if (t <? u) && (u <? k) then u - 1 else u) else u.
  Let fr k u := if o <? k then (if u =? o then Some t else if u =? t then None else Some u) else Some u.
  Let dl k := if o <? k then [t] else [].

  Lemma others_none i : 1 <= i < n -> i <> o -> isemp st i = true -> similar_to st i = None.
  Proof.
    intros Hi Hne He. destruct (similar_to st i) as [s|] eqn:Hs; [|reflexivity]. exfalso. apply similar_iff_uniq in Hs. destruct Hs as (S1 & _ & S2 & _).
    exact (Hnone i s Hi Hne He S1 S2).
  Qed.
  Lemma one_fold nb : n <= 32 * nb -> forall k, k <= n -> foldM (prune_step nb st) (idx st 0 k) (prune_init n) = Ok (mkPrune (map (smk k) (seq 0 n)) (map (fr k) (seq 0 n)) (dl k)).
  Proof.
    intros Hc. induction k as [|k IH]; intros Hk.
    - unfold idx, smk, fr, dl. cbn [seq map foldM Nat.ltb Nat.leb]. unfold prune_init. f_equal. f_equal. symmetry. apply map_id.
    - unfold idx in *. rewrite seq_S, map_app, foldM_app, IH by lia. cbn [plus map foldM bind].
      match goal with |- (do _ <- ?x; _) = Ok ?y => enough (Hx : x = Ok y) by (rewrite Hx; reflexivity) end.
      apply prune_step_iff; [lia|exact Hc|]. cbn [state_map deleted]. exists (smk k k).
      assert (Hn : nth_error (map (smk k) (seq 0 n)) k = Some (smk k k)) by (rewrite nth_error_map, nth_error_seq by lia; reflexivity).
      assert (Hd : length (filter (fun d => d <? k) (dl k)) = if t <? k then 1 else 0).
      { unfold dl. destruct (Nat.ltb_spec o k); [cbn [filter]; destruct (t <? k); reflexivity|]. destruct (Nat.ltb_spec t k); [lia|reflexivity]. }
      rewrite Hd. split; [exact Hn|]. split.
      { unfold smk. destruct (Nat.ltb_spec t k); [|lia]. destruct (Nat.ltb_spec o k); [|lia]. destruct (Nat.eqb_spec k t); [lia|]. rewrite Nat.ltb_irrefl, andb_false_r. lia. }
      unfold first_step. cbn [state_map state_map_from deleted]. rewrite Hd, upd_seq.
      destruct (Nat.eq_dec k o) as [->|Hko].
      + unfold second_step. destruct (Nat.eqb_spec o 0); [lia|]. rewrite Ho, Hso. cbn [negb]. unfold merge_step. cbn [state_map state_map_from deleted].
        rewrite !upd_seq, map_map. unfold dl. rewrite Nat.ltb_irrefl. replace (o <? S o) with true by (symmetry; apply Nat.ltb_lt; lia). cbn [app]. f_equal.
        * apply map_ext_in. intros u Hu. unfold smk. rewrite Nat.ltb_irrefl. replace (o <? S o) with true by (symmetry; apply Nat.ltb_lt; lia).
          destruct (Nat.eqb_spec u t); [reflexivity|]. destruct (Nat.ltb_spec t o); [lia|].
          destruct (Nat.ltb_spec t u), (Nat.ltb_spec u (S o)); cbn [andb]; destruct (Nat.eqb_spec u o); lia.
        * apply map_ext_in. intros u Hu. unfold fr. rewrite Nat.ltb_irrefl. replace (o <? S o) with true by (symmetry; apply Nat.ltb_lt; lia).
          destruct (Nat.eqb_spec u t); destruct (Nat.eqb_spec u o); try lia; reflexivity.
      + assert (Hs2 : second_step st (mkPrune (map (fun u => if u =? k then smk k k - (if t <? k then 1 else 0) else smk k u) (seq 0 n)) (map (fr k) (seq 0 n)) (dl k)) k =
           mkPrune (map (fun u => if u =? k then smk k k - (if t <? k then 1 else 0) else smk k u) (seq 0 n)) (map (fr k) (seq 0 n)) (dl k)).
        { unfold second_step. destruct (Nat.eqb_spec k 0); [reflexivity|]. destruct (isemp st k) eqn:He; [|reflexivity]. cbn [negb]. rewrite others_none by (lia || assumption). reflexivity. }
        rewrite Hs2. assert (Hlt : (o <? S k) = (o <? k)).
        { destruct (Nat.ltb_spec o k), (Nat.ltb_spec o (S k)); lia || reflexivity. }
        unfold dl, fr, smk. rewrite Hlt. f_equal. apply map_ext_in. intros u Hu.
        destruct (Nat.ltb_spec o k) as [C|C].
        * destruct (Nat.eqb_spec u k) as [->|].
          -- rewrite Nat.ltb_irrefl, andb_false_r. destruct (Nat.eqb_spec k t) as [->|]; [rewrite Nat.ltb_irrefl; lia|]. replace (k <? S k) with true by (symmetry; apply Nat.ltb_lt; lia). rewrite andb_true_r. destruct (t <? k); lia.
          -- destruct (Nat.eqb_spec u t); [reflexivity|]. replace (u <? S k) with (u <? k); [reflexivity|]. destruct (Nat.ltb_spec u k), (Nat.ltb_spec u (S k)); lia || reflexivity.
        * destruct (Nat.ltb_spec t k); [lia|]. destruct (Nat.eqb_spec u k); lia.
  Qed.
  Definition pf : prune_state := mkPrune (map sm (seq 0 n)) (map (fun u => if u =? o then Some t else if u =? t then None else Some u) (seq 0 n)) [t].
  Lemma one_folds : folds st pf.
  Proof.
    assert (Hn0 : n <= 32 * n) by lia. exists n. split; [exact Hn0|]. fold n. rewrite (one_fold n Hn0) by lia. unfold pf, dl. replace (o <? n) with true by (symmetry; apply Nat.ltb_lt; fold n in Ot; lia). f_equal. f_equal.
    - apply map_ext_in. intros u Hu. apply in_seq in Hu. unfold smk, sm. replace (o <? n) with true by (symmetry; apply Nat.ltb_lt; fold n in Ot; lia).
      destruct (Nat.ltb_spec u t), (Nat.eqb_spec u t), (Nat.ltb_spec t u), (Nat.ltb_spec u n); cbn [andb]; lia.
    - apply map_ext. intros u. unfold fr. replace (o <? n) with true by (symmetry; apply Nat.ltb_lt; fold n in Ot; lia). reflexivity.
  Qed.
  Lemma one_slots : somes (state_map_from pf) = map slot (seq 0 (n - 1)).
  Proof.
    fold n in Ot. cbn [pf state_map_from]. set (g := fun u => if u =? o then Some t else if u =? t then None else Some u).
    assert (S1 : seq 0 n = seq 0 t ++ t :: seq (S t) (n - S t)).
    { replace n with (t + S (n - S t)) at 1 by lia. rewrite seq_app. reflexivity. }
    assert (S2 : seq 0 (n - 1) = seq 0 t ++ seq t (n - S t)).
    { replace (n - 1) with (t + (n - S t)) by lia. rewrite seq_app. reflexivity. }
    rewrite S1, S2, !map_app. cbn [map]. unfold somes. rewrite flat_map_app. cbn [flat_map]. fold (@somes nat). f_equal.
    - assert (G : forall l, (forall u, In u l -> u < t) -> flat_map (fun x => match x with Some a => [a] | None => [] end) (map g l) = map slot l).
      { induction l as [|u l IH]; intros Hl; [reflexivity|]. cbn [map flat_map]. rewrite IH by (intros; apply Hl; right; assumption). specialize (Hl u (or_introl eq_refl)).
        unfold g, slot. destruct (Nat.eqb_spec u o); [reflexivity|]. destruct (Nat.eqb_spec u t); [lia|]. destruct (Nat.ltb_spec u t); [reflexivity|lia]. }
      apply G. intros u Hu. apply in_seq in Hu. lia.
    - unfold g at 1. destruct (Nat.eqb_spec t o); [lia|]. rewrite Nat.eqb_refl. cbn [app]. rewrite <- seq_shift, map_map.
      assert (G : forall l, (forall u, In u l -> t <= u) -> flat_map (fun x => match x with Some a => [a] | None => [] end) (map (fun x => g (S x)) l) = map slot l).
      { induction l as [|u l IH]; intros Hl; [reflexivity|]. cbn [map flat_map]. rewrite IH by (intros; apply Hl; right; assumption). specialize (Hl u (or_introl eq_refl)).
        unfold g, slot. destruct (Nat.eqb_spec (S u) o); [lia|]. destruct (Nat.eqb_spec (S u) t); [lia|]. destruct (Nat.eqb_spec u o); [lia|]. destruct (Nat.ltb_spec u t); [lia|reflexivity]. }
      apply G. intros u Hu. apply in_seq in Hu. lia.
  Qed.
  Lemma sm_slot j : j < n - 1 -> sm (slot j) = j /\ slot j < n /\ slot j <> o.
  Proof.
    fold n in Ot. intros Hj. unfold sm, slot. destruct (Nat.eqb_spec j o) as [->|].
    - rewrite Nat.ltb_irrefl, Nat.eqb_refl. lia.
    - destruct (Nat.ltb_spec j t) as [C|C].
      + replace (j <? t) with true by (symmetry; apply Nat.ltb_lt; exact C). lia.
      + replace (S j <? t) with false by (symmetry; apply Nat.ltb_ge; lia). replace (S j =? t) with false by (symmetry; apply Nat.eqb_neq; lia). lia.
  Qed.
  Lemma slot_sm u : u < n -> u <> o -> slot (sm u) = u /\ sm u < n - 1.
  Proof.
    fold n in Ot. intros Hu Hne. unfold sm, slot. destruct (Nat.ltb_spec u t).
    - destruct (Nat.eqb_spec u o); [lia|]. destruct (Nat.ltb_spec u t); lia.
    - destruct (Nat.eqb_spec u t) as [->|]; [rewrite Nat.eqb_refl; lia|]. destruct (Nat.eqb_spec (u - 1) o); [lia|]. destruct (Nat.ltb_spec (u - 1) t); lia.
  Qed.
  Lemma sm_at u : u < n -> nth_error (state_map pf) u = Some (sm u).
  Proof. intros Hu. cbn [pf state_map]. rewrite nth_error_map, nth_error_seq by exact Hu. reflexivity. Qed.
  Lemma slot_at j : nth_error (somes (state_map_from pf)) j = if j <? n - 1 then Some (slot j) else None.
  Proof.
    rewrite one_slots, nth_error_map. destruct (Nat.ltb_spec j (n - 1)); [rewrite nth_error_seq by assumption; reflexivity|].
    replace (nth_error (seq 0 (n - 1)) j) with (@None nat); [reflexivity|]. symmetry. apply nth_error_None. rewrite seq_length. assumption.
  Qed.
  Lemma one_merges : merges st (state_map pf) (somes (state_map_from pf)).
  Proof.
    pose proof Hso as Hs. apply similar_iff_uniq in Hs. destruct Hs as (_ & _ & Hs & _). fold n in Ot.
    assert (Hsm : forall u, u < n -> nth_error (somes (state_map_from pf)) (sm u) = Some (slot (sm u)) /\ (u <> o -> slot (sm u) = u)).
    { intros u Hu. rewrite slot_at. split; [|intros Hne; apply slot_sm; assumption].
      destruct (Nat.eq_dec u o) as [->|Hne].
      - unfold sm. destruct (Nat.ltb_spec o t); [|lia]. destruct (Nat.ltb_spec o (n - 1)); [reflexivity|lia].
      - destruct (slot_sm u Hu Hne) as [_ Hl]. destruct (Nat.ltb_spec (sm u) (n - 1)); [reflexivity|lia]. }
    split.
    - intros u Hu. fold n in Hu. exists (sm u), (slot (sm u)). split; [apply sm_at; exact Hu|]. split; [apply Hsm; exact Hu|].
      destruct (Nat.eq_dec u o) as [->|Hne]; [right|left; apply Hsm; assumption].
      assert (E0 : sm o = o /\ slot o = t).
      { unfold sm, slot. destruct (Nat.ltb_spec o t); [|lia]. rewrite Nat.eqb_refl. auto. }
      destruct E0 as [E1 E2]. rewrite E1, E2. split; [exact Ho|]. split; [apply Hs; apply R; fold n; lia|].
      intros u Hu'. destruct (Nat.eq_dec u o) as [->|Hne]; [right; rewrite sm_at by lia; congruence|]. left. apply Hs. auto.
    - intros r Hr. rewrite one_slots in Hr. apply in_map_iff in Hr. destruct Hr as (j & <- & Hj). apply in_seq in Hj. apply sm_slot. lia.
    - rewrite sm_at by lia. f_equal. unfold sm. destruct (Nat.ltb_spec 0 t); lia.
    - rewrite slot_at. destruct (Nat.ltb_spec 0 (n - 1)); [|lia]. f_equal. unfold slot. destruct (Nat.eqb_spec 0 o); [lia|]. destruct (Nat.ltb_spec 0 t); lia.
    - fold n. rewrite sm_at by lia. rewrite one_slots, map_length, seq_length. unfold sm. destruct (Nat.ltb_spec (n - 1) t); [lia|]. destruct (Nat.eqb_spec (n - 1) t); [lia|]. try (f_equal; lia). 
  Qed.
  Lemma one_prune : exists st', prunes st st' /\ length st' = n - 1 /\ forall j, j < n - 1 ->
    chars (X st' j) = chars (X st (slot j)) /\ next (X st' j) = sm (next (X st (slot j))) /\
    forall v, E st' j v <-> v < n - 1 /\ E st (slot j) (slot v).
  Proof.
    assert (Hn0 : n <= 32 * n) by lia.
    assert (Hs : prune_safe n st = true).
    { unfold prune_safe. rewrite combine_idx, (folds_any n _ _ one_folds Hn0). pose proof one_merges as Hm. apply merges_iff in Hm. rewrite Hm. cbn [andb].
      rewrite one_slots, map_length, seq_length. cbn [pf deleted length]. apply Nat.eqb_eq. fold n in Ot. change (length st) with n. lia. }
    destruct (prunes_ok n st F Hs) as (st' & _ & P & _). exists st'. split; [exact P|].
    destruct P as (p & Hf & _ & _ & Him). pose proof (folds_det _ _ _ Hf one_folds). subst p. destruct Him as [I1 I2]. rewrite one_slots, map_length, seq_length in I1. split; [exact I1|].
    intros j Hj. destruct (I2 j (slot j)) as (J1 & J2 & J3); [rewrite slot_at; destruct (Nat.ltb_spec j (n - 1)); [reflexivity|lia]|].
    destruct (sm_slot j Hj) as (S1 & S2 & S3). split; [exact J1|]. split.
    - rewrite sm_at in J2 by (eapply ok_next; [exact F|exact S2]). congruence.
    - intros v. rewrite J3. split.
      + intros (u & U1 & U2). assert (Hu : u < n) by (eapply ok_E; [exact F|exact S2|exact U1]). rewrite sm_at in U2 by exact Hu. injection U2 as <-.
        assert (Hne : u <> o) by (intros ->; exact (Hno _ S3 U1)). destruct (slot_sm u Hu Hne) as [A B]. rewrite A. auto.
      + intros [V1 V2]. exists (slot v). destruct (sm_slot v V1) as (A & B & _). split; [exact V2|]. rewrite sm_at by exact B. congruence.
  Qed.
  (** No pairs, also when what led to the merged state leads to the other one. *)
  Hypothesis Hpair : forall e c, e < n -> c < n -> e <> o -> isemp st e = true -> next (X st c) <> c -> (forall j, E st c j -> j = c) -> E st e c ->
    ~ E st e (next (X st c)) /\ (next (X st c) = o -> ~ E st e t).
  Lemma one_calm st' : prunes st st' -> calm st' /\ fine st' /\ length st' <> n.
  Proof.
    intros P. destruct one_prune as (s & P2 & L & H). pose proof (prunes_det _ _ _ P P2). subst s. clear P2. fold n in Ot.
    assert (Ff : fine st') by (eapply prunes_fine; [exact F|exact P]).
    assert (HE : forall j v, E st' j v <-> j < n - 1 /\ v < n - 1 /\ E st (slot j) (slot v)).
    { intros j v. split.
      - intros H1. pose proof (E_in _ _ _ H1) as Hj. rewrite L in Hj. apply H in H1; [|exact Hj]. tauto.
      - intros (H1 & H2). apply H; assumption. }
    assert (Hback : forall j u, j < n - 1 -> E st (slot j) u -> u <> o /\ u < n /\ slot (sm u) = u /\ sm u < n - 1).
    { intros j u Hj Hu. destruct (sm_slot j Hj) as (_ & S2 & S3). assert (Hn : u < n) by (eapply ok_E; [exact F|exact S2|exact Hu]).
      assert (Hne : u <> o) by (intros ->; exact (Hno _ S3 Hu)). destruct (slot_sm u Hn Hne). auto. }
    assert (Hemp : forall j, j < n - 1 -> isemp st' j = isemp st (slot j)).
    { intros j Hj. unfold isemp. destruct (H j Hj) as [-> _]. reflexivity. }
    split; [|split; [exact Ff|lia]]. split.
    - intros i Hi. rewrite L in Hi. apply HE. split; [exact Hi|]. split; [exact Hi|]. apply R. apply sm_slot. exact Hi.
    - intros i j k H1 H2. apply HE in H1, H2. apply HE. destruct H1 as (A1 & A2 & A3), H2 as (B1 & B2 & B3). split; [exact A1|]. split; [exact B2|]. eapply T; eassumption.
    - intros i i2 Hi He Hi2 Hx. rewrite L in Hi, Hi2. rewrite Hemp in He by lia. destruct (sm_slot i ltac:(lia)) as (S1 & S2 & S3). destruct (sm_slot i2 Hi2) as (S4 & S5 & S6).
      refine (Hnone (slot i) (slot i2) _ S3 He S5 _).
      + split; [|exact S2]. unfold slot. destruct (Nat.eqb_spec i o); [lia|]. destruct (Nat.ltb_spec i t); lia.
      + intros u. split.
        * intros Hu. destruct (Hback i2 u Hi2 Hu) as (U1 & U2 & U3 & U4). assert (G : E st' i2 (sm u)) by (apply HE; rewrite U3; auto). apply Hx in G. destruct G as [G1 G2].
          apply HE in G1. rewrite U3 in G1. split; [apply G1|]. intros ->. apply G2. exact S1.
        * intros [Hu Hne]. destruct (Hback i u ltac:(lia) Hu) as (U1 & U2 & U3 & U4). assert (G : E st' i2 (sm u)).
          { apply Hx. split; [apply HE; rewrite U3; repeat split; [lia|exact U4|exact Hu]|]. intros Heq. apply Hne. rewrite <- U3, Heq. reflexivity. }
          apply HE in G. rewrite U3 in G. apply G.
    - intros e c He Hc [P0 P1 P2 P3 P4 P5 P6 P7]. rewrite L in He, Hc. rewrite Hemp in P1 by exact He. apply HE in P5, P6.
      destruct (sm_slot e He) as (S1 & S2 & S3). destruct (sm_slot c Hc) as (S4 & S5 & S6). destruct (H c Hc) as (_ & Hn & _).
      assert (Hnx : next (X st (slot c)) < n) by (eapply ok_next; [exact F|exact S5]).
      assert (Hcc : next (X st (slot c)) <> slot c).
      { intros Heq. apply P3. rewrite Hn, Heq. exact S4. }
      assert (Hal : forall j, E st (slot c) j -> j = slot c).
      { intros j Hj. destruct (Hback c j Hc Hj) as (U1 & U2 & U3 & U4). assert (G : E st' c (sm j)) by (apply HE; rewrite U3; auto). apply P4 in G. congruence. }
      destruct (Hpair (slot e) (slot c) S2 S5 S3 P1 Hcc Hal ltac:(apply P5)) as [Q1 Q2].
      destruct (Nat.eq_dec (next (X st (slot c))) o) as [Ho'|Ho'].
      + apply (Q2 Ho'). destruct P6 as (_ & _ & P6). rewrite Hn, Ho' in P6. unfold sm in P6. destruct (Nat.ltb_spec o t); [|lia]. unfold slot in P6 at 2. rewrite Nat.eqb_refl in P6. exact P6.
      + apply Q1. destruct P6 as (_ & _ & P6). rewrite Hn in P6. destruct (slot_sm _ Hnx Ho') as [-> _] in P6. exact P6.
  Qed.
End one.

Lemma calm_prunes st : fine st -> calm st -> prunes st st.
Proof.
  intros F C. assert (Hn0 : length st <= 32 * length st) by lia.
  assert (Hnone : forall i, 1 <= i < length st -> isemp st i = true -> similar_to st i = None).
  { intros i Hi He. destruct (similar_to st i) as [s|] eqn:Hs; [|reflexivity]. exfalso. apply similar_iff_uniq in Hs. destruct Hs as (S1 & _ & S2 & _). exact (ca_none _ C i s Hi He S1 S2). }
  assert (HF : forall k, k <= length st -> foldM (prune_step (length st) st) (idx st 0 k) (prune_init (length st)) = Ok (prune_init (length st))).
  { induction k as [|k IH]; intros Hk; [reflexivity|]. unfold idx in *. rewrite seq_S, map_app, foldM_app, IH by lia. cbn [plus map foldM bind].
    match goal with |- (do _ <- ?x; _) = Ok ?y => enough (Hx : x = Ok y) by (rewrite Hx; reflexivity) end.
    apply prune_step_iff; [lia|exact Hn0|]. exists k. cbn [prune_init state_map deleted filter length]. split; [apply nth_error_seq; lia|]. split; [lia|].
    assert (Hfs : first_step (prune_init (length st)) k k = prune_init (length st)).
    { unfold first_step, prune_init. cbn [state_map state_map_from deleted filter length]. rewrite Nat.sub_0_r. f_equal.
      rewrite <- (map_id (seq 0 (length st))) at 1. rewrite upd_seq. rewrite <- (map_id (seq 0 (length st))) at 2. apply map_ext. intros u. destruct (Nat.eqb_spec u k); [congruence|reflexivity]. }
    rewrite Hfs. unfold second_step. destruct (Nat.eqb_spec k 0); [reflexivity|]. destruct (isemp st k) eqn:He; [|reflexivity]. cbn [negb]. rewrite Hnone by (lia || assumption). reflexivity. }
  exists (prune_init (length st)). pose proof (o_ne _ _ F) as Hne. cbn [prune_init state_map state_map_from deleted]. rewrite somes_map_Some, seq_length. cbn [length]. split; [exists (length st); split; [exact Hn0|]; apply HF; lia|].
  split; [|split; [lia|]].
  - split.
    + intros u Hu. exists u, u. rewrite nth_error_seq by exact Hu. auto.
    + intros r Hr. apply in_seq in Hr. lia.
    + apply nth_error_seq. exact Hne.
    + apply nth_error_seq. exact Hne.
    + rewrite seq_length. rewrite nth_error_seq by lia. reflexivity.
  - split; [rewrite seq_length; reflexivity|]. intros j r Hj. assert (Hl : j < length st).
    { apply nth_lt in Hj. rewrite seq_length in Hj. exact Hj. }
    rewrite nth_error_seq in Hj by exact Hl. injection Hj as <-. split; [reflexivity|]. split; [apply nth_error_seq; eapply ok_next; [exact F|exact Hl]|].
    intros u. split.
    + intros Hu. exists u. split; [exact Hu|]. apply nth_error_seq. eapply ok_E; [exact F|exact Hl|exact Hu].
    + intros (v & Hv & Hn). rewrite nth_error_seq in Hn by (eapply ok_E; [exact F|exact Hl|exact Hv]). injection Hn as <-. exact Hv.
Qed.
Lemma calm_tame st st1 : closes st st1 -> fine st1 -> calm st1 -> tame st.
Proof.
  intros Hc F C. apply (tame_intro st st1).
  - exists st1, st1. split; [exact Hc|]. split; [apply calm_prunes; assumption|]. apply no_pairs_steps. exact (ca_pair _ C).
  - intros Hl. destruct (Hl (cl_len _ _ Hc)).
Qed.
Lemma closed_refl st st1 : closes st st1 -> forall i, i < length st1 -> E st1 i i.
Proof. intros C i Hi. apply (cl_E _ _ C); [rewrite <- (cl_len _ _ C); exact Hi|constructor]. Qed.
Lemma closed_trans st st1 : fine st -> closes st st1 -> forall i j k, E st1 i j -> E st1 j k -> E st1 i k.
Proof.
  intros F C i j k H1 H2. pose proof (closes_self _ _ F C) as S. apply (cl_E _ _ S); [eapply E_in; exact H1|]. eapply re_step; [exact H1|]. eapply re_step; [exact H2|constructor].
Qed.
Lemma one_tame st st1 o t : fine st -> closes st st1 -> isemp st1 o = true -> 1 <= o < t /\ t < length st1 - 1 ->
  similar_to st1 o = Some t -> (forall i, i <> o -> ~ E st1 i o) ->
  (forall i i2, 1 <= i < length st1 -> i <> o -> isemp st1 i = true -> i2 < length st1 -> ~ (forall u, E st1 i2 u <-> E st1 i u /\ u <> i)) ->
  (forall e c, e < length st1 -> c < length st1 -> e <> o -> isemp st1 e = true -> next (X st1 c) <> c -> (forall j, E st1 c j -> j = c) -> E st1 e c ->
    ~ E st1 e (next (X st1 c)) /\ (next (X st1 c) = o -> ~ E st1 e t)) -> tame st.
Proof.
  intros F Hc Ho Ot Hs Hno Hnone Hpair. pose proof (closes_fine _ _ F Hc) as F1. pose proof (closed_refl _ _ Hc) as R. pose proof (closed_trans _ _ F Hc) as T.
  destruct (one_prune st1 o t F1 Ho Ot R T Hs Hno Hnone) as (st2 & P & _).
  destruct (one_calm st1 o t F1 Ho Ot R T Hs Hno Hnone Hpair st2 P) as (C & F2 & Hl).
  apply (tame_intro st st2).
  - exists st1, st2. split; [exact Hc|]. split; [exact P|]. apply no_pairs_steps. exact (ca_pair _ C).
  - intros _. apply (calm_tame st2 st2); [|exact F2|exact C]. apply closed_closes; [exact F2|exact (ca_refl _ C)|exact (ca_trans _ C)].
Qed.
