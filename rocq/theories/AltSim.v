(** Automata with alternatives. The state in front of alternatives reaches several disjoint parts of
    the automaton. Replacing it by a state that reaches nothing gives an interval automaton
    ([PruneProofs]) on which the optimiser (expression.rs:338-435) does the same. *)
From Verif Require Export FlatProofs.

Definition E (st : list state) (i t : nat) : Prop := mem (eps (X st i)) t = true.
Definition proper (st : list state) (i : nat) : Prop := isemp st i = false \/ (forall t, E st i t -> t = i).

(** [F] is closed, and the characters of its states do not lead into [G], or there are several. *)
Record half (st : list state) (b : nat) (F G : nat -> Prop) : Prop := {
  h_ne : exists t, F t;
  h_b : ~ F b;
  h_cl : forall i t, F i -> E st i t -> F t;
  h_nx : (forall i t, F i -> proper st i -> E st (next (X st i)) t -> G t -> False) \/
         (exists i j, F i /\ F j /\ i <> j /\ isemp st i = false /\ isemp st j = false)
}.
Definition split (st : list state) (b : nat) : Prop := exists F G : nat -> Prop,
  (forall t, t <> b -> (E st b t <-> F t \/ G t)) /\ (forall t, F t -> G t -> False) /\ half st b F G /\ half st b G F.

(** [sb] is [st] without what the states [B] reach; [SS b]: the first states of the alternatives. *)
Record sim (st sb : list state) (L : nat -> bool) (H : nat -> nat) (B : nat -> bool) (SS : nat -> nat -> Prop) : Prop := {
  s_len : length st = length sb;
  s_bar : forall b, b < length sb -> B b = true -> isemp st b = true /\ isemp sb b = false /\ far_next (length sb) L H b b /\ next (X sb b) = b;
  s_chr : forall i, i < length sb -> B i = false -> chars (X st i) = chars (X sb i) /\ next (X st i) = next (X sb i);
  s_eps : forall i t, i < length sb -> (E st i t <-> E sb i t \/ exists b s, B b = true /\ E sb i b /\ SS b s /\ E st s t);
  s_start : forall b s, b < length sb -> B b = true -> SS b s -> b < s < length sb /\ entry H s /\ L s = false;
  s_split : forall b, b < length sb -> B b = true -> split st b
}.

Lemma ia_refl st L H i : ia st L H -> i < length st -> E st i i.
Proof. intros Hia Hi. apply (ia_eps _ _ _ Hia i Hi). pose proof (ia_hi _ _ _ Hia i Hi). lia. Qed.
Lemma ia_trans st L H i j t : ia st L H -> i < length st -> j < length st -> E st i j -> E st j t -> E st i t.
Proof.
  intros Hia Hi Hj H1 H2. eapply ia_closed; eauto. eapply path_eps; [apply edge0; exists (X st i); split; [apply X_nth; exact Hi|exact H1]|].
  eapply path_eps; [apply edge0; exists (X st j); split; [apply X_nth; exact Hj|exact H2]|constructor].
Qed.
Lemma ia_bound st L H i j : ia st L H -> i < length st -> E st i j -> j < length st.
Proof. intros Hia Hi H1. apply (ia_eps _ _ _ Hia i Hi) in H1. pose proof (ia_hi _ _ _ Hia i Hi). lia. Qed.

Section sim.
  Variables (st sb : list state) (L : nat -> bool) (H : nat -> nat) (B : nat -> bool) (SS : nat -> nat -> Prop).
  Hypothesis Hia : ia sb L H.
  Hypothesis Hsim : sim st sb L H B SS.
  Let n := length sb.

  Lemma sim_near i b : i < n -> E sb i b -> B b = true -> i <= b /\ b < n /\ H i = b.
  Proof.
    intros Hi He Hb. pose proof (ia_bound _ _ _ _ _ Hia Hi He) as Hbn. destruct (s_bar _ _ _ _ _ _ Hsim b Hbn Hb) as (_ & _ & (W1 & W2 & _) & _).
    apply (ia_eps _ _ _ Hia i Hi) in He. assert (Hib : i <= b).
    { destruct (Nat.le_gt_cases i b) as [C|C]; [exact C|]. destruct (L i) eqn:Li; cbn [b2n] in He; [|lia].
      assert (i = S b) by lia. subst i. rewrite (W2 Hi) in Li. discriminate. }
    split; [exact Hib|]. split; [exact Hbn|]. pose proof (W1 i Hib). lia.
  Qed.
  Lemma sim_top i b t : i < n -> E sb i b -> B b = true -> E sb i t -> t <= b.
  Proof. intros Hi He Hb Ht. destruct (sim_near i b Hi He Hb) as (_ & _ & Hh). apply (ia_eps _ _ _ Hia i Hi) in Ht. lia. Qed.
  Lemma sim_near_in i t : i < n -> E sb i t -> E st i t.
  Proof. intros Hi He. apply (s_eps _ _ _ _ _ _ Hsim i t Hi). auto. Qed.
  Lemma sim_refl i : i < n -> E st i i.
  Proof. intros Hi. apply sim_near_in; [exact Hi|]. apply (ia_refl _ _ _ _ Hia Hi). Qed.
  Lemma sim_ge : forall i t, i < n -> E st i t -> (i <= t + b2n (L i) /\ t < n) /\ (E sb i t \/ i < t).
  Proof.
    intros i. remember (n - i) as d eqn:Hd. revert i Hd. induction d as [d IH] using lt_wf_ind. intros i Hd t Hi He.
    apply (s_eps _ _ _ _ _ _ Hsim i t Hi) in He. destruct He as [He|(b & s & Hb & Hib & Hs & He)].
    - pose proof (ia_bound _ _ _ _ _ Hia Hi He). pose proof He as He'. apply (ia_eps _ _ _ Hia i Hi) in He'. split; [lia|auto].
    - destruct (sim_near i b Hi Hib Hb) as (H1 & H2 & H3). destruct (s_start _ _ _ _ _ _ Hsim b s H2 Hb Hs) as (H4 & H5 & H6). fold n in H4.
      destruct (IH (n - s) ltac:(lia) s eq_refl t ltac:(lia) He) as [[G1 G2] _]. rewrite H6 in G1. cbn [b2n] in G1. split; [lia|]. right. lia.
  Qed.
  Lemma sim_far i b s t : i < n -> E sb i b -> B b = true -> SS b s -> E st s t -> i < s < n /\ b < s /\ s <= t < n.
  Proof.
    intros Hi Hib Hb Hs He. destruct (sim_near i b Hi Hib Hb) as (H1 & H2 & H3). destruct (s_start _ _ _ _ _ _ Hsim b s H2 Hb Hs) as (H4 & H5 & H6). fold n in H4.
    destruct (sim_ge s t ltac:(lia) He) as [[G1 G2] _]. rewrite H6 in G1. cbn [b2n] in G1. lia.
  Qed.
  Lemma sim_trans : forall i j t, i < n -> E st i j -> E st j t -> E st i t.
  Proof.
    intros i. remember (n - i) as d eqn:Hd. revert i Hd. induction d as [d IH] using lt_wf_ind. intros i Hd j t Hi H1 H2.
    destruct (sim_ge i j Hi H1) as [[_ Hj] _].
    apply (s_eps _ _ _ _ _ _ Hsim i j Hi) in H1. apply (s_eps _ _ _ _ _ _ Hsim i t Hi). destruct H1 as [H1|(b & s & Hb & Hib & Hs & H1)].
    - apply (s_eps _ _ _ _ _ _ Hsim j t Hj) in H2. destruct H2 as [H2|(b & s & Hb & Hib & Hs & H2)].
      + left. eapply (ia_trans sb L H i j t); eauto.
      + right. exists b, s. repeat split; auto. eapply (ia_trans sb L H i j b); eauto.
    - right. exists b, s. repeat split; auto. destruct (sim_far i b s j Hi Hib Hb Hs H1) as (G1 & G2 & G3).
      apply (IH (n - s) ltac:(lia) s eq_refl j t); auto. lia.
  Qed.
  Lemma sim_bound i t : i < n -> E st i t -> t < n.
  Proof. intros Hi He. apply (sim_ge i t Hi He). Qed.
  (** What is far is not near. *)
  Lemma sim_split_near i t : i < n -> E sb i t -> forall b, E st i b -> B b = true -> t <= b.
  Proof.
    intros Hi Ht b Hb HB. apply (s_eps _ _ _ _ _ _ Hsim i b Hi) in Hb. destruct Hb as [Hb|(b' & s & Hb' & Hib & Hs & Hb)].
    - eapply sim_top; eauto.
    - pose proof (sim_top i b' t Hi Hib Hb' Ht). destruct (sim_far i b' s b Hi Hib Hb' Hs Hb). lia.
  Qed.
  Lemma sim_near_of i t : i < n -> E st i t -> (forall b, E st i b -> B b = true -> t <= b) -> E sb i t.
  Proof.
    intros Hi Ht Hall. apply (s_eps _ _ _ _ _ _ Hsim i t Hi) in Ht. destruct Ht as [Ht|(b & s & Hb & Hib & Hs & Ht)]; [exact Ht|].
    destruct (sim_far i b s t Hi Hib Hb Hs Ht). pose proof (Hall b (sim_near_in i b Hi Hib) Hb). lia.
  Qed.

  (** ** Pruning does the same *)
  Lemma eps_eq x y : (forall t, mem x t = true <-> mem y t = true) -> x = y.
  Proof. intros Hxy. apply mem_ext. intros t. apply eq_true_iff_eq. apply Hxy. Qed.
  Lemma sim_similar i j : i < j -> j < n -> B i = false ->
    (eps (X st j) = rem (eps (X st i)) i <-> eps (X sb j) = rem (eps (X sb i)) i).
  Proof.
    intros Hij Hj Hb. assert (Hi : i < n) by lia.
    assert (Hrem : forall x t, mem (rem x i) t = true <-> mem x t = true /\ t <> i).
    { intros x t. rewrite mem_rem, andb_true_iff, negb_true_iff, Nat.eqb_neq. split; intros [? ?]; split; auto. }
    split; intros Heq.
    - assert (G : forall t, E st j t <-> E st i t /\ t <> i) by (intros t; unfold E; rewrite Heq; apply Hrem).
      apply eps_eq. intros t. rewrite Hrem. fold (E sb j t) (E sb i t). split.
      + intros Ht. pose proof (proj1 (G t) (sim_near_in j t Hj Ht)) as [G1 G2]. split; [|exact G2]. apply (sim_near_of i t Hi G1).
        intros b Hb1 Hb2. apply (sim_split_near j t Hj Ht); [|exact Hb2]. apply G. split; [exact Hb1|congruence].
      + intros [Ht Hne]. pose proof (proj2 (G t) (conj (sim_near_in i t Hi Ht) Hne)) as G1. apply (sim_near_of j t Hj G1).
        intros b Hb1 Hb2. apply (sim_split_near i t Hi Ht); [|exact Hb2]. apply G. exact Hb1.
    - assert (G : forall t, E sb j t <-> E sb i t /\ t <> i) by (intros t; unfold E; rewrite Heq; apply Hrem).
      apply eps_eq. intros t. rewrite Hrem. fold (E st j t) (E st i t). split.
      + intros Ht. apply (s_eps _ _ _ _ _ _ Hsim j t Hj) in Ht. destruct Ht as [Ht|(b & s & Hb' & Hjb & Hs & Ht)].
        * apply G in Ht. split; [apply sim_near_in; tauto|tauto].
        * apply G in Hjb. destruct Hjb as [Hjb _]. destruct (sim_far i b s t Hi Hjb Hb' Hs Ht) as (F1 & F2 & F3). split; [|lia].
          apply (s_eps _ _ _ _ _ _ Hsim i t Hi). right. exists b, s. auto.
      + intros [Ht Hne]. apply (s_eps _ _ _ _ _ _ Hsim i t Hi) in Ht. apply (s_eps _ _ _ _ _ _ Hsim j t Hj). destruct Ht as [Ht|(b & s & Hb' & Hib & Hs & Ht)].
        * left. apply G. auto.
        * right. exists b, s. repeat split; auto. apply G. split; [exact Hib|congruence].
  Qed.
  Lemma sim_no_similar b j : b < j -> j < n -> B b = true -> eps (X st j) <> rem (eps (X st b)) b.
  Proof.
    intros Hbj Hj Hb Heq. destruct (s_split _ _ _ _ _ _ Hsim b ltac:(fold n; lia) Hb) as (F & G & C & D & HF & HG).
    assert (Q : forall t, E st j t <-> E st b t /\ t <> b).
    { intros t. unfold E. rewrite Heq, mem_rem, andb_true_iff, negb_true_iff, Nat.eqb_neq. split; intros [? ?]; split; auto. }
    pose proof (proj1 (Q j) (sim_refl j Hj)) as [Q1 Q2]. apply (C j Q2) in Q1.
    destruct Q1 as [Q1|Q1].
    - destruct (h_ne _ _ _ _ HG) as [t Ht]. assert (Htb : t <> b) by (intros ->; exact (h_b _ _ _ _ HG Ht)).
      assert (Hjt : E st j t) by (apply Q; split; [apply C; auto|exact Htb]). apply (D t); [|exact Ht]. exact (h_cl _ _ _ _ HF j t Q1 Hjt).
    - destruct (h_ne _ _ _ _ HF) as [t Ht]. assert (Htb : t <> b) by (intros ->; exact (h_b _ _ _ _ HF Ht)).
      assert (Hjt : E st j t) by (apply Q; split; [apply C; auto|exact Htb]). apply (D t); [exact Ht|]. exact (h_cl _ _ _ _ HG j t Q1 Hjt).
  Qed.
  Lemma sim_step nblk i p : length sb <= 32 * nblk -> i < n -> prune_step nblk st p (i, X st i) = prune_step nblk sb p (i, X sb i).
  Proof.
    intros Hcap Hi. unfold prune_step. destruct (index (state_map p) i) as [m| | |]; cbn [bind]; try reflexivity.
    destruct (checked_sub m _) as [m'| | |]; cbn [bind]; try reflexivity. cbv zeta.
    destruct (i =? 0); [reflexivity|]. fold (isemp st i) (isemp sb i). unfold chk. fold n in Hcap. destruct (Nat.ltb_spec i (32 * nblk)); [|lia]. cbn [bind].
    pose proof (find_similar_spec (rem (eps (X st i)) i) i st 0) as F1. pose proof (find_similar_spec (rem (eps (X sb i)) i) i sb 0) as F2.
    assert (Hl : length st = n) by apply (s_len _ _ _ _ _ _ Hsim).
    destruct (B i) eqn:Hb.
    - destruct (s_bar _ _ _ _ _ _ Hsim i Hi Hb) as (E1 & E2 & _). rewrite E1, E2. cbn [negb].
      destruct (find_similar (rem (eps (X st i)) i) i _) as [t|]; [|reflexivity]. exfalso. destruct F1 as (T1 & T2 & T3 & _).
      rewrite Nat.sub_0_r in T3. apply (sim_no_similar i t T2 ltac:(lia) Hb T3).
    - destruct (s_chr _ _ _ _ _ _ Hsim i Hi Hb) as [E1 _]. unfold isemp. rewrite E1. destruct (negb _); [reflexivity|].
      assert (Hs : forall j, i < j -> j < n -> (eps (X st j) = rem (eps (X st i)) i <-> eps (X sb j) = rem (eps (X sb i)) i)).
      { intros j H1 H2. apply sim_similar; assumption. }
      assert (Heq : find_similar (rem (eps (X st i)) i) i (combine (seq 0 (length st)) st) = find_similar (rem (eps (X sb i)) i) i (combine (seq 0 (length sb)) sb)).
      { destruct (find_similar (rem (eps (X st i)) i) i _) as [t|], (find_similar (rem (eps (X sb i)) i) i _) as [t'|]; [| | |reflexivity].
        - destruct F1 as (T1 & T2 & T3 & T4), F2 as (U1 & U2 & U3 & U4). rewrite Nat.sub_0_r in T3, U3. fold n in U1. rewrite Hl in T1. f_equal.
          destruct (Nat.lt_trichotomy t t') as [C|[C|C]]; [|exact C|]; exfalso.
          + apply (U4 t); [lia|exact T2|]. rewrite Nat.sub_0_r. apply Hs; [exact T2|lia|exact T3].
          + apply (T4 t'); [lia|exact U2|]. rewrite Nat.sub_0_r. apply Hs; [exact U2|lia|exact U3].
        - exfalso. destruct F1 as (T1 & T2 & T3 & T4). rewrite Nat.sub_0_r in T3. rewrite Hl in T1. apply (F2 t); [fold n; lia|exact T2|].
          rewrite Nat.sub_0_r. apply Hs; [exact T2|lia|exact T3].
        - exfalso. destruct F2 as (U1 & U2 & U3 & U4). rewrite Nat.sub_0_r in U3. fold n in U1. apply (F1 t'); [rewrite Hl; lia|exact U2|].
          rewrite Nat.sub_0_r. apply Hs; [exact U2|lia|exact U3]. }
      rewrite Heq. reflexivity.
  Qed.
  Lemma sim_fold nblk p : length sb <= 32 * nblk ->
    foldM (prune_step nblk st) (combine (seq 0 (length st)) st) p = foldM (prune_step nblk sb) (combine (seq 0 (length sb)) sb) p.
  Proof.
    intros Hcap. assert (Hl : length st = n) by apply (s_len _ _ _ _ _ _ Hsim).
    assert (HG : forall (l l' : list state) k p, length l = length l' -> (forall j p, j < length l -> prune_step nblk st p (k + j, X l j) = prune_step nblk sb p (k + j, X l' j)) ->
      foldM (prune_step nblk st) (combine (seq k (length l)) l) p = foldM (prune_step nblk sb) (combine (seq k (length l')) l') p).
    { induction l as [|x l IH]; intros [|x' l'] k q Hl' Hstep; try discriminate; [reflexivity|]. cbn [length seq combine foldM].
      pose proof (Hstep 0 q ltac:(cbn; lia)) as E0. rewrite Nat.add_0_r in E0. cbn [X nth] in E0. unfold X in E0. cbn [nth] in E0. rewrite E0.
      destruct (prune_step nblk sb q (k, x')) as [q'| | |]; cbn [bind]; try reflexivity. apply IH; [cbn in Hl'; lia|].
      intros j q2 Hj. pose proof (Hstep (S j) q2 ltac:(cbn; lia)) as Ej. rewrite Nat.add_succ_r in Ej. exact Ej. }
    apply HG; [exact Hl|]. intros j q Hj. apply (sim_step nblk j q Hcap). lia.
  Qed.
  Lemma sim_merge smap slots : merge_ok sb smap slots = true -> merge_ok st smap slots = true.
  Proof.
    intros Hm. pose proof (mg_map sb smap slots Hm) as MG. assert (Hl : length st = n) by apply (s_len _ _ _ _ _ _ Hsim).
    unfold merge_ok in *. rewrite Hl. fold n in Hm. apply andb_true_iff in Hm. destruct Hm as [Hm1 Hm2]. apply andb_true_iff in Hm1. destruct Hm1 as [Hm1 Hm3].
    rewrite Hm2, Hm3, !andb_true_r. apply forallb_forall. intros [u x] Hin. rewrite <- Hl in Hin. apply in_combine_seq in Hin. rewrite Nat.sub_0_r in Hin. destruct Hin as [_ Hx].
    assert (Hu : u < n) by (rewrite <- Hl; eapply nth_lt; exact Hx). cbn [fst snd].
    destruct (MG u _ (X_nth sb u Hu)) as (m & r & y & E1 & E2 & E3 & E4). unfold merged_ok. rewrite E1, E2.
    assert (Hr : r < n) by (eapply nth_lt; exact E3). pose proof (X_of _ _ _ Hx) as Xu. pose proof (X_of _ _ _ E3) as Xr.
    destruct E4 as [->|(E4 & E5 & E6)]; [rewrite Nat.eqb_refl; reflexivity|]. apply orb_true_iff. right.
    assert (Hnb : B u = false).
    { destruct (B u) eqn:Hb; [|reflexivity]. destruct (s_bar _ _ _ _ _ _ Hsim u Hu Hb) as (_ & F & _). unfold isemp in F. rewrite E4 in F. discriminate. }
    destruct (s_chr _ _ _ _ _ _ Hsim u Hu Hnb) as [C1 _]. rewrite <- Xu, C1, E4. cbn [andb]. rewrite N.eqb_refl. cbn [andb].
    assert (Hur : E st u r) by (apply sim_near_in; assumption). unfold E in Hur. rewrite Hur. cbn [andb].
    rewrite (X_nth st r) by lia. apply forallb_forall. intros t Ht. apply in_ones in Ht. fold (E st u t) in Ht.
    apply (s_eps _ _ _ _ _ _ Hsim u t Hu) in Ht. apply orb_true_iff. destruct Ht as [Ht|(b & s & Hb & Hub & Hs & Ht)].
    - destruct (E6 t Ht) as [F|F]; [left|right; rewrite F; apply Nat.eqb_refl]. apply (sim_near_in r t Hr). unfold E. rewrite Xr. exact F.
    - left. enough (Hrb : E st r b) by (eapply (sim_trans r b t Hr Hrb); apply (s_eps _ _ _ _ _ _ Hsim b t); [exact (proj1 (proj2 (sim_near u b Hu Hub Hb)))|];
        right; exists b, s; repeat split; auto; apply (ia_refl _ _ _ _ Hia), (proj1 (proj2 (sim_near u b Hu Hub Hb)))).
      destruct (E6 b Hub) as [F|F]; [apply (sim_near_in r b Hr); unfold E; rewrite Xr; exact F|].
      pose proof (proj1 (proj2 (sim_near u b Hu Hub Hb))) as Hbn.
      destruct (MG b _ (X_nth sb b Hbn)) as (m' & r' & y' & G1 & G2 & G3 & G4).
      assert (m' = m) by congruence. subst m'. assert (r' = r) by congruence. subst r'.
      destruct G4 as [->|(G4 & _)]; [apply sim_refl; exact Hbn|]. destruct (s_bar _ _ _ _ _ _ Hsim b Hbn Hb) as (_ & Q & _).
      unfold isemp in Q. rewrite G4 in Q. discriminate.
  Qed.
End sim.
