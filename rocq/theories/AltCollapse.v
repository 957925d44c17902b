(** Collapsing (expression.rs:257-333) keeps [sim], and the whole optimisation of automata with
    alternatives is harmless. *)
From Verif Require Export AltPrune.

Lemma remap_order e c k : e < c -> (k < c /\ remap e c k = k) \/ (k = c /\ remap e c k = e) \/ (c < k /\ remap e c k = k - 1).
Proof.
  intros Hec. unfold remap. destruct (Nat.ltb_spec k c); [auto|]. destruct (Nat.eqb_spec k c); [|right; right; lia].
  right; left. destruct (Nat.ltb_spec e c); [auto|lia].
Qed.

Section collapse.
  Variables (st sb : list state) (L : nat -> bool) (H : nat -> nat) (B : nat -> bool) (SS : nat -> nat -> Prop).
  Hypothesis Hia : ia sb L H.
  Hypothesis Hsim : sim st sb L H B SS.
  Let n := length sb.
  Variables (e c : nat) (xe xc xn : state).
  Hypothesis HP : a_pair e c st xe xc xn.
  Let nx := next xc.

  Lemma a_facts : e < n /\ c < n /\ nx < n /\ e <> c /\ nx <> e /\ nx <> c /\ isemp st e = true /\ next (X st c) = nx /\
    (forall j, E st c j -> j = c) /\ E st e c /\ E st e nx /\ (forall j, E st e j -> j = c \/ j = e \/ E st nx j).
  Proof.
    pose proof (s_len _ _ _ _ _ _ Hsim) as Hl. fold n in Hl.
    pose proof (nth_lt _ _ _ (pr_e _ _ _ _ _ _ HP)) as He. pose proof (nth_lt _ _ _ (pr_c _ _ _ _ _ _ HP)) as Hc.
    pose proof (nth_lt _ _ _ (pr_n _ _ _ _ _ _ HP)) as Hnx.
    pose proof (X_of _ _ _ (pr_e _ _ _ _ _ _ HP)) as Xe. pose proof (X_of _ _ _ (pr_c _ _ _ _ _ _ HP)) as Xc.
    pose proof (X_of _ _ _ (pr_n _ _ _ _ _ _ HP)) as Xn. unfold E, isemp. rewrite Xe, Xc. fold nx in Xn, Hnx. rewrite Xn.
    rewrite (pr_chars _ _ _ _ _ _ HP).
    pose proof (pr_nx_e _ _ _ _ _ _ HP). pose proof (pr_nx_c _ _ _ _ _ _ HP). pose proof (pr_ne _ _ _ _ _ _ HP).
    repeat split; try lia; try assumption; try reflexivity.
    - exact (pr_eps_c _ _ _ _ _ _ HP).
    - exact (pr_to_c _ _ _ _ _ _ HP).
    - exact (pr_to_n _ _ _ _ _ _ HP).
    - exact (pr_sub _ _ _ _ _ _ HP).
  Qed.
  Lemma a_c : B c = false.
  Proof.
    destruct a_facts as (He & Hc & Hnx & A1 & A2 & A3 & A4 & A5 & A6 & A7 & A8 & A9). destruct (B c) eqn:HB; [|reflexivity]. exfalso.
    destruct (s_split _ _ _ _ _ _ Hsim c Hc HB) as (F & G & C & D & HF & HG). destruct (h_ne _ _ _ _ HF) as [f Hf].
    assert (Hne : f <> c) by (intros ->; exact (h_b _ _ _ _ HF Hf)). apply Hne, A6. apply C; auto.
  Qed.
  Lemma a_e : B e = false.
  Proof.
    destruct a_facts as (He & Hc & Hnx & A1 & A2 & A3 & A4 & A5 & A6 & A7 & A8 & A9). destruct (B e) eqn:HB; [|reflexivity]. exfalso.
    destruct (s_split _ _ _ _ _ _ Hsim e He HB) as (F & G & C & D & HF & HG).
    assert (HG0 : forall F G : nat -> Prop, (forall t, t <> e -> (E st e t <-> F t \/ G t)) -> (forall t, F t -> G t -> False) ->
       half st e F G -> half st e G F -> F c -> False).
    { clear F G C D HF HG. intros F G C D HF HG Fc. destruct (proj1 (C nx A2) A8) as [Fn|Gn].
      - destruct (h_ne _ _ _ _ HG) as [g Hg]. assert (Hne : g <> e) by (intros ->; exact (h_b _ _ _ _ HG Hg)).
        destruct (A9 g (proj2 (C g Hne) (or_intror Hg))) as [F1|[F1|F1]]; [subst g; exact (D c Fc Hg)|contradiction|].
        exact (D g (h_cl _ _ _ _ HF nx g Fn F1) Hg).
      - destruct (h_nx _ _ _ _ HF) as [Hn|(i & j & I1 & J1 & Hij & _)].
        + apply (Hn c nx Fc); [right; exact A6| |exact Gn]. rewrite A5. apply (sim_refl _ _ _ _ _ _ Hia Hsim nx Hnx).
        + assert (Hf : exists f, F f /\ f <> c) by (destruct (Nat.eq_dec i c) as [->|]; eauto). destruct Hf as (f & Ff & Hfc).
          assert (Hfe : f <> e) by (intros ->; exact (h_b _ _ _ _ HF Ff)).
          destruct (A9 f (proj2 (C f Hfe) (or_introl Ff))) as [F1|[F1|F1]]; [contradiction|contradiction|].
          exact (D f Ff (h_cl _ _ _ _ HG nx f Gn F1)). }
    destruct (proj1 (C c ltac:(congruence)) A7) as [Fc|Gc].
    - apply (HG0 F G); auto.
    - apply (HG0 G F); auto. + intros t Ht. rewrite (C t Ht). split; intros [?|?]; auto. + intros t ? ?. eapply D; eauto.
  Qed.
  Lemma b_proper : isemp sb c = false \/ (H c = c /\ L c = false).
  Proof.
    destruct a_facts as (He & Hc & Hnx & A1 & A2 & A3 & A4 & A5 & A6 & A7 & A8 & A9). right. apply (ia_self _ _ _ _ Hia Hc).
    intros t Ht. apply A6. apply (sim_near_in _ _ _ _ _ _ Hsim c t Hc Ht).
  Qed.
  Lemma b_next : next (X sb c) = nx.
  Proof.
    destruct a_facts as (He & Hc & Hnx & A1 & A2 & A3 & A4 & A5 & A6 & A7 & A8 & A9).
    rewrite <- (proj2 (s_chr _ _ _ _ _ _ Hsim c Hc a_c)). exact A5.
  Qed.
  Lemma b_to_c : E sb e c.
  Proof.
    destruct a_facts as (He & Hc & Hnx & A1 & A2 & A3 & A4 & A5 & A6 & A7 & A8 & A9).
    pose proof (proj1 (s_eps _ _ _ _ _ _ Hsim e c He) A7) as [G|(b & s & Hb & Heb & Hs & G)]; [exact G|]. exfalso.
    destruct (sim_near _ _ _ _ _ _ Hia Hsim e b He Heb Hb) as (B1 & B2 & B3).
    assert (b <> e) by (intros ->; rewrite a_e in Hb; discriminate). assert (b <> c) by (intros ->; rewrite a_c in Hb; discriminate).
    destruct (A9 b (sim_near_in _ _ _ _ _ _ Hsim e b He Heb)) as [Q|[Q|Q]]; [contradiction|contradiction|].
    destruct (s_start _ _ _ _ _ _ Hsim b s B2 Hb Hs) as (S1 & S2 & S3). fold n in S1, B2.
    destruct (sim_ge _ _ _ _ _ _ Hia Hsim s c ltac:(fold n; lia) G) as [[G1 G2] _]. rewrite S3 in G1. cbn [b2n] in G1.
    destruct (sim_ge _ _ _ _ _ _ Hia Hsim nx b Hnx Q) as [[Q1 Q2] _].
    pose proof (ia_n1 _ _ _ Hia c Hc b_proper) as N1. rewrite b_next in N1.
    assert (b2 : b2n (L nx) <= 1) by (destruct (L nx); cbn; lia).
    destruct N1 as [[N1 N2]|[(N1 & N2 & N3 & N4 & N5)|(N1 & N2 & N3)]].
    - lia.
    - replace (c - 1) with nx in * by lia. rewrite N4 in Q1. cbn [b2n] in Q1.
      destruct (s_bar _ _ _ _ _ _ Hsim b B2 Hb) as (_ & _ & (W & _) & _). pose proof (W nx ltac:(lia)). lia.
    - destruct N3 as [N3|[N3 _]]; [contradiction|]. lia.
  Qed.
  Lemma b_to_n : E sb e nx.
  Proof.
    destruct a_facts as (He & Hc & Hnx & A1 & A2 & A3 & A4 & A5 & A6 & A7 & A8 & A9).
    pose proof (proj1 (s_eps _ _ _ _ _ _ Hsim e nx He) A8) as [G|(b & s & Hb & Heb & Hs & G)]; [exact G|]. exfalso.
    destruct (sim_near _ _ _ _ _ _ Hia Hsim e b He Heb Hb) as (B1 & B2 & B3).
    assert (b <> c) by (intros ->; rewrite a_c in Hb; discriminate).
    pose proof (sim_top _ _ _ _ _ _ Hia Hsim e b c He Heb Hb b_to_c) as Hcb.
    destruct (sim_far _ _ _ _ _ _ Hia Hsim e b s nx He Heb Hb Hs G) as (S1 & S2 & S3).
    pose proof (ia_n1 _ _ _ Hia c Hc b_proper) as N1. rewrite b_next in N1.
    destruct N1 as [[N1 N2]|[(N1 & N2 & N3 & N4 & N5)|(N1 & N2 & N3)]]; [lia|lia|].
    pose proof b_to_c as T. apply (ia_eps _ _ _ Hia e He) in T.
    destruct (Nat.le_gt_cases e c) as [C|C]; [pose proof (N1 e C); lia|].
    destruct (L e) eqn:Le; cbn [b2n] in T; [|lia]. assert (e = S c) by lia. rewrite <- H1 in N2. rewrite (N2 He) in Le. discriminate.
  Qed.
  Lemma pair_sb : a_pair e c sb (X sb e) (X sb c) (X sb nx).
  Proof.
    destruct a_facts as (He & Hc & Hnx & A1 & A2 & A3 & A4 & A5 & A6 & A7 & A8 & A9).
    split; rewrite ?b_next; auto.
    - apply X_nth; exact He.
    - apply X_nth; exact Hc.
    - apply X_nth; exact Hnx.
    - exact (pr_0 _ _ _ _ _ _ HP).
    - rewrite <- (proj1 (s_chr _ _ _ _ _ _ Hsim e He a_e)). apply N.eqb_eq. exact A4.
    - intros j Hj. apply A6. apply (sim_near_in _ _ _ _ _ _ Hsim c j Hc Hj).
    - exact b_to_c.
    - exact b_to_n.
    - intros j Hj. destruct (A9 j (sim_near_in _ _ _ _ _ _ Hsim e j He Hj)) as [Q|[Q|Q]]; auto. right; right.
      apply (sim_near_of _ _ _ _ _ _ Hia Hsim nx j Hnx Q). intros b Hb HB.
      apply (sim_split_near _ _ _ _ _ _ Hia Hsim e j He Hj b); [|exact HB]. exact (sim_trans _ _ _ _ _ _ Hia Hsim _ _ _ He A8 Hb).
  Qed.
  Lemma far_c : e < c /\ S c <= H e.
  Proof. exact (pair_top sb L H e c _ _ _ Hia pair_sb). Qed.
  Lemma start_c s : s < n -> entry H s -> s <> c.
  Proof. intros Hs Hen ->. destruct far_c. pose proof (Hen e H0). lia. Qed.

  (** Who reaches the character state also reaches where it leads. *)
  Lemma to_c_next : forall k, k < n -> k <> c -> E st k c -> E st k nx.
  Proof.
    destruct a_facts as (He & Hc & Hnx & A1 & A2 & A3 & A4 & A5 & A6 & A7 & A8 & A9).
    intros k. remember (n - k) as d eqn:Hd. revert k Hd. induction d as [d IH] using lt_wf_ind. intros k Hd Hk Hkc Hec.
    pose proof (proj1 (s_eps _ _ _ _ _ _ Hsim k c Hk) Hec) as [G|(b & s & Hb & Heb & Hs & G)].
    - pose proof (collapse_safe_ia sb L H e c _ _ _ Hia pair_sb) as Hsafe. unfold collapse_safe in Hsafe. rewrite (X_nth sb c Hc), forallb_forall in Hsafe.
      specialize (Hsafe (k, X sb k)). rewrite b_next in Hsafe. assert (Hin : In (k, X sb k) (combine (seq 0 (length sb)) sb)).
      { apply in_combine_seq. rewrite Nat.sub_0_r. split; [lia|apply X_nth; exact Hk]. }
      specialize (Hsafe Hin). cbn in Hsafe. apply orb_true_iff in Hsafe. destruct Hsafe as [Hsafe|Hsafe]; [apply Nat.eqb_eq in Hsafe; contradiction|].
      apply andb_true_iff in Hsafe. destruct Hsafe as [Hsafe _]. rewrite implb_true_iff in Hsafe.
      apply (sim_near_in _ _ _ _ _ _ Hsim k nx Hk). apply Hsafe. exact G.
    - destruct (sim_far _ _ _ _ _ _ Hia Hsim k b s c Hk Heb Hb Hs G) as (F1 & F2 & F3). fold n in F1.
      destruct (sim_near _ _ _ _ _ _ Hia Hsim k b Hk Heb Hb) as (_ & Hbn & _). destruct (s_start _ _ _ _ _ _ Hsim b s Hbn Hb Hs) as (_ & Hen & _).
      apply (s_eps _ _ _ _ _ _ Hsim k nx Hk). right. exists b, s. repeat split; auto.
      apply (IH (n - s) ltac:(lia) s eq_refl ltac:(lia) (start_c s ltac:(lia) Hen) G).
  Qed.
  (** Who enters at its start a part with the pair, enters before the pair. *)
  Lemma start_c_e : forall s, s < n -> entry H s -> L s = false -> E st s c -> E st s e.
  Proof.
    destruct a_facts as (He & Hc & Hnx & A1 & A2 & A3 & A4 & A5 & A6 & A7 & A8 & A9). destruct far_c as [F1 F2].
    intros s. remember (n - s) as d eqn:Hd. revert s Hd. induction d as [d IH] using lt_wf_ind. intros s Hd Hs Hen Ls G.
    pose proof (proj1 (s_eps _ _ _ _ _ _ Hsim s c Hs) G) as [Q|(b & s' & Hb & Hsb & Hs' & Q)].
    - apply (ia_eps _ _ _ Hia s Hs) in Q. rewrite Ls in Q. cbn [b2n] in Q. apply (sim_near_in _ _ _ _ _ _ Hsim s e Hs), (ia_eps _ _ _ Hia s Hs).
      rewrite Ls. cbn [b2n]. destruct (Nat.le_gt_cases s e); [lia|]. pose proof (Hen e H0). lia.
    - destruct (sim_far _ _ _ _ _ _ Hia Hsim s b s' c Hs Hsb Hb Hs' Q) as (S1 & S2 & S3). fold n in S1.
      destruct (sim_near _ _ _ _ _ _ Hia Hsim s b Hs Hsb Hb) as (_ & Hbn & _). destruct (s_start _ _ _ _ _ _ Hsim b s' Hbn Hb Hs') as (_ & Hen' & Ls').
      apply (s_eps _ _ _ _ _ _ Hsim s e Hs). right. exists b, s'. repeat split; auto. apply (IH (n - s') ltac:(lia) s' eq_refl ltac:(lia) Hen' Ls' Q).
  Qed.
  Lemma split_c_e b (F G : nat -> Prop) : b < n -> B b = true -> (forall t, t <> b -> (E st b t <-> F t \/ G t)) -> (forall t, F t -> G t -> False) ->
    half st b F G -> half st b G F -> F c -> F e.
  Proof.
    destruct a_facts as (He & Hc & Hnx & A1 & A2 & A3 & A4 & A5 & A6 & A7 & A8 & A9).
    intros Hb HB C D HF HG Fc. assert (c <> b) by (intros <-; rewrite a_c in HB; discriminate). assert (e <> b) by (intros <-; rewrite a_e in HB; discriminate).
    assert (Hbe : E st b e).
    { pose proof (proj1 (s_eps _ _ _ _ _ _ Hsim b c Hb) (proj2 (C c H0) (or_introl Fc))) as [Q|(b' & s & Hb' & Hbb & Hs & Q)].
      - exfalso. destruct (s_bar _ _ _ _ _ _ Hsim b Hb HB) as (_ & E2 & (W & _) & _). apply (ia_eps _ _ _ Hia b Hb) in Q.
        pose proof (W b (le_n b)) as Wb. destruct (L b) eqn:Lb; cbn [b2n] in Q; [|lia]. destruct (ia_lp _ _ _ Hia b Hb Lb) as (_ & _ & _ & G4 & _). congruence.
      - destruct (sim_far _ _ _ _ _ _ Hia Hsim b b' s c Hb Hbb Hb' Hs Q) as (S1 & S2 & S3). fold n in S1.
        destruct (sim_near _ _ _ _ _ _ Hia Hsim b b' Hb Hbb Hb') as (_ & Hbn & _). destruct (s_start _ _ _ _ _ _ Hsim b' s Hbn Hb' Hs) as (_ & Hen & Ls).
        apply (s_eps _ _ _ _ _ _ Hsim b e Hb). right. exists b', s. repeat split; auto. apply (start_c_e s ltac:(lia) Hen Ls Q). }
    apply (C e H1) in Hbe. destruct Hbe as [Fe|Ge]; [exact Fe|]. exfalso. exact (D c Fc (h_cl _ _ _ _ HG e c Ge A7)).
  Qed.
  (** No proper state leads to the character state. *)
  Lemma proper_sb k : k < n -> proper st k -> B k = false /\ (isemp sb k = false \/ (H k = k /\ L k = false)).
  Proof.
    intros Hk Hp. assert (HB : B k = false).
    { destruct (B k) eqn:HB; [|reflexivity]. exfalso. destruct (s_bar _ _ _ _ _ _ Hsim k Hk HB) as (Q & _). destruct Hp as [Hp|Hp]; [congruence|].
      destruct (s_split _ _ _ _ _ _ Hsim k Hk HB) as (F & G & C & D & HF & HG). destruct (h_ne _ _ _ _ HF) as [f Hf].
      assert (Hne : f <> k) by (intros ->; exact (h_b _ _ _ _ HF Hf)). apply Hne, Hp. apply C; auto. }
    split; [exact HB|]. destruct Hp as [Hp|Hp].
    - left. unfold isemp in *. rewrite <- (proj1 (s_chr _ _ _ _ _ _ Hsim k Hk HB)). exact Hp.
    - right. apply (ia_self _ _ _ _ Hia Hk). intros t Ht. apply Hp. apply (sim_near_in _ _ _ _ _ _ Hsim k t Hk Ht).
  Qed.
  Lemma not_to_c k : k < n -> proper st k -> next (X st k) <> c.
  Proof.
    destruct a_facts as (He & Hc & Hnx & A1 & A2 & A3 & A4 & A5 & A6 & A7 & A8 & A9).
    intros Hk Hp. destruct (proper_sb k Hk Hp) as [HB Hp']. destruct (Nat.eq_dec k c) as [->|Hkc]; [congruence|].
    rewrite (proj2 (s_chr _ _ _ _ _ _ Hsim k Hk HB)). exact (no_to_c sb L H e c _ _ _ Hia pair_sb k Hk Hkc Hp').
  Qed.
  Lemma collapse_safe_sim : collapse_safe c st = true.
  Proof.
    destruct a_facts as (He & Hc & Hnx & A1 & A2 & A3 & A4 & A5 & A6 & A7 & A8 & A9).
    pose proof (s_len _ _ _ _ _ _ Hsim) as Hl. fold n in Hl.
    unfold collapse_safe. rewrite (X_nth st c) by lia. apply forallb_forall. intros [k x] Hin. apply in_combine_seq in Hin. rewrite Nat.sub_0_r in Hin. destruct Hin as [_ Hx].
    assert (Hk : k < n) by (rewrite <- Hl; eapply nth_lt; exact Hx). pose proof (X_of _ _ _ Hx) as Xk.
    destruct (Nat.eqb_spec k c) as [|Hkc]; [reflexivity|]. cbn [orb]. rewrite A5. apply andb_true_iff. split; apply implb_true_iff; intros G.
    - rewrite <- Xk in *. apply to_c_next; assumption.
    - apply negb_true_iff, Nat.eqb_neq. rewrite <- Xk in *. apply not_to_c; [exact Hk|]. left. apply negb_true_iff in G. exact G.
  Qed.

  (** ** The result *)
  Variables (nblk : nat) (st' sb' : list state).
  Hypothesis Hok : nfa_ok nblk st.
  Hypothesis Hokb : nfa_ok nblk sb.
  Hypothesis Hst' : collapse nblk e c st = Ok st'.
  Hypothesis Hsb' : collapse nblk e c sb = Ok sb'.
  Let r := remap e c.
  Let u := unslot c.
  Definition kB (m : nat) : bool := B (u m).
  Definition kS (m s' : nat) : Prop := exists s, SS (u m) s /\ s' = r s.

  Lemma c_st : length st' = n - 1 /\ forall m, m < n - 1 -> let k := u m in let v := if k =? e then c else k in
    k < n /\ k <> c /\ r k = m /\ isemp st' m = isemp st v /\ chars (X st' m) = chars (X st v) /\ next (X st' m) = r (next (X st v)) /\
    forall t, E st' m t <-> exists w, E st k w /\ r w = t.
  Proof.
    destruct a_facts as (He & Hc & Hnx & A1 & A2 & A3 & A4 & A5 & A6 & A7 & A8 & A9).
    pose proof (s_len _ _ _ _ _ _ Hsim) as Hl. fold n in Hl.
    destruct (collapse_rel nblk st e c st' Hok A1 ltac:(lia) ltac:(lia) Hst') as [Q1 Q2]. rewrite Hl in *. split; [exact Q1|].
    intros m Hm. destruct (Q2 m Hm) as (R1 & R2 & R3). cbv zeta. fold u r in R1, R2, R3 |- *.
    assert (Hu : u m < n /\ u m <> c) by (unfold u, unslot; destruct (Nat.ltb_spec m c); lia). destruct Hu as [U1 U2].
    split; [exact U1|]. split; [exact U2|]. split; [apply remap_unslot|]. unfold isemp. rewrite R1, R2. destruct (u m =? e); repeat split; auto; apply R3.
  Qed.
  Lemma c_sb : length sb' = n - 1 /\ forall m, m < n - 1 -> let k := u m in let v := if k =? e then c else k in
    isemp sb' m = isemp sb v /\ chars (X sb' m) = chars (X sb v) /\ next (X sb' m) = r (next (X sb v)) /\
    forall t, E sb' m t <-> exists w, E sb k w /\ r w = t.
  Proof.
    destruct a_facts as (He & Hc & Hnx & A1 & A2 & A3 & A4 & A5 & A6 & A7 & A8 & A9).
    destruct (collapse_rel nblk sb e c sb' Hokb A1 He Hc Hsb') as [Q1 Q2]. split; [exact Q1|].
    intros m Hm. destruct (Q2 m Hm) as (R1 & R2 & R3). cbv zeta. fold u r in R1, R2, R3 |- *.
    unfold isemp. rewrite R1, R2. destruct (u m =? e); repeat split; auto; apply R3.
  Qed.
  Lemma ur k : k <> c -> u (r k) = k.
  Proof. intros Hk. apply unslot_remap; [apply a_facts|exact Hk]. Qed.
  Lemma rr a b : r a = r b -> a = b \/ (a = c /\ b = e) \/ (a = e /\ b = c).
  Proof. apply remap_inj. apply a_facts. Qed.
  Lemma r_lt k : k < n -> r k < n - 1.
  Proof. intros Hk. destruct a_facts as (He & Hc & _ & A1 & _). exact (remap_lt e c k n A1 He Hc Hk). Qed.
  Lemma u_lt m : m < n - 1 -> u m < n /\ u m <> c /\ r (u m) = m.
  Proof. intros Hm. destruct c_st as [_ Q]. destruct (Q m Hm) as (Q1 & Q2 & Q3 & _). auto. Qed.

  Lemma c_half b (F G : nat -> Prop) : b < n -> B b = true -> (forall t, F t -> t < n) ->
    (F c -> F e) -> (G c -> G e) -> (forall i t, G i -> E st i t -> G t) ->
    half st b F G -> half st' (r b) (fun j => exists v, F v /\ r v = j) (fun j => exists v, G v /\ r v = j).
  Proof.
    destruct a_facts as (He & Hc & Hnx & A1 & A2 & A3 & A4 & A5 & A6 & A7 & A8 & A9).
    intros Hb HB Fn Fce Gce Gcl [F1 F2 F3 F4].
    assert (Huv : forall v, F v -> F (u (r v)) /\ u (r v) < n).
    { intros v Fv. destruct (Nat.eq_dec v c) as [->|Hv]; [|rewrite (ur v Hv); auto].
      assert (r c = r e) as -> by (apply remap_c; exact A1). rewrite ur by exact A1. auto. }
    split.
    - destruct F1 as [t Ht]. eauto.
    - intros (v & V1 & V2). apply rr in V2. destruct V2 as [->|[[-> ->]|[-> ->]]]; [contradiction|rewrite a_e in HB; discriminate|rewrite a_c in HB; discriminate].
    - intros i t (v & V1 & <-) Ht. destruct c_st as [_ Q]. destruct (Q (r v) (r_lt v (Fn v V1))) as (_ & _ & _ & _ & _ & _ & Q7).
      apply Q7 in Ht. destruct Ht as (w & W1 & W2). exists w. split; [|exact W2]. eapply F3; [|exact W1]. apply Huv. exact V1.
    - destruct F4 as [F4|(i & j & I1 & J1 & Hij & I2 & J2)].
      2:{ right. exists (r i), (r j). split; [eauto|]. split; [eauto|].
        assert (Hk : forall k, F k -> isemp st k = false -> isemp st' (r k) = false).
        { intros k Fk Hk. destruct c_st as [_ Q]. destruct (Q (r k) (r_lt k (Fn k Fk))) as (_ & _ & _ & Q4 & _). cbv zeta in Q4. rewrite Q4.
          destruct (Nat.eq_dec k c) as [->|Hkc].
          - assert (r c = r e) as -> by (apply remap_c; exact A1). rewrite ur by exact A1. rewrite Nat.eqb_refl. exact Hk.
          - rewrite (ur k Hkc). destruct (Nat.eqb_spec k e) as [->|]; [congruence|exact Hk]. }
        split; [|split; apply Hk; assumption]. intros Heq. apply rr in Heq. destruct Heq as [?|[[_ ->]|[-> _]]]; [contradiction|congruence|congruence]. }
      left. intros i t (v & V1 & <-) Hpr Ht (x & X1 & X2). destruct c_st as [_ Q].
      destruct (Q (r v) (r_lt v (Fn v V1))) as (Q1 & Q2 & Q3 & Q4 & Q5 & Q6 & Q7). cbv zeta in *.
      destruct (Huv v V1) as [Fk _]. set (k := u (r v)) in *. set (y := if k =? e then c else k) in *.
      assert (Fy : F y /\ y < n) by (unfold y; destruct (Nat.eqb_spec k e) as [->|]; [split; [exact (F3 _ _ Fk A7)|exact Hc]|auto]).
      destruct Fy as [Fy Hy].
      assert (Py : proper st y).
      { unfold y in *. destruct (Nat.eqb_spec k e) as [Hke|Hke]; [right; exact A6|].
        destruct Hpr as [Hpr|Hpr]; [left; congruence|right]. intros w Hw.
        assert (r w = r k) as Hrw by (rewrite Q3; apply Hpr, Q7; eauto). apply rr in Hrw. destruct Hrw as [?|[[_ ?]|[_ ?]]]; [assumption|contradiction|contradiction]. }
      pose proof (not_to_c y Hy Py) as Hnc. set (nxt := next (X st y)) in *.
      assert (Hnn : nxt < n).
      { pose proof (s_len _ _ _ _ _ _ Hsim) as Hl. fold n in Hl. destruct (o_rng _ _ Hok y _ (X_nth st y ltac:(lia))) as [O _]. fold nxt in O. lia. }
      rewrite Q6 in Ht. destruct (Q (r nxt) (r_lt nxt Hnn)) as (_ & _ & _ & _ & _ & _ & N7). apply N7 in Ht. rewrite (ur nxt Hnc) in Ht.
      destruct Ht as (w & W1 & W2). rewrite <- W2 in X2. apply rr in X2.
      destruct X2 as [->|[[-> ->]|[-> ->]]].
      + exact (F4 y w Fy Py W1 X1).
      + apply (F4 y c Fy Py); [exact (sim_trans _ _ _ _ _ _ Hia Hsim _ _ _ Hnn W1 A7)|exact X1].
      + apply (F4 y c Fy Py W1). exact (Gcl _ _ X1 A7).
  Qed.

  Lemma collapse_sim : sim st' sb' (cL L e c) (cH H e c) kB kS.
  Proof.
    destruct a_facts as (He & Hc & Hnx & A1 & A2 & A3 & A4 & A5 & A6 & A7 & A8 & A9). destruct far_c as [Hec Hce].
    destruct c_st as [Ls QS]. destruct c_sb as [Lb QB]. split; rewrite ?Lb.
    - lia.
    - intros m Hm HB. destruct (QS m Hm) as (S1 & S2 & S3 & S4 & _). destruct (QB m Hm) as (B1 & B2 & B3 & _). cbv zeta in *. unfold kB in HB.
      destruct (Nat.eqb_spec (u m) e) as [Hue|Hue]; [rewrite Hue, a_e in HB; discriminate|].
      destruct (s_bar _ _ _ _ _ _ Hsim (u m) S1 HB) as (Q1 & Q2 & Q3 & Q4). rewrite S4, B1, B3, Q4. split; [exact Q1|]. split; [exact Q2|]. split; [|exact S3].
      rewrite <- S3; apply (far_next_c sb L H e c _ _ _ Hia pair_sb nblk (u m) (u m) S1 S2 Q3).
    - intros m Hm HB. destruct (QS m Hm) as (S1 & S2 & S3 & _ & S4 & S5 & _). destruct (QB m Hm) as (_ & B2 & B3 & _). cbv zeta in *. unfold kB in HB.
      assert (HBv : B (if u m =? e then c else u m) = false) by (destruct (u m =? e); [exact a_c|exact HB]).
      destruct (s_chr _ _ _ _ _ _ Hsim (if u m =? e then c else u m)) as [C1 C2]; [destruct (u m =? e); assumption|exact HBv|]. split; congruence.
    - intros m j Hm. destruct (QS m Hm) as (S1 & S2 & S3 & _ & _ & _ & ES). destruct (QB m Hm) as (_ & _ & _ & EB). cbv zeta in *. split.
      + intros Hj. apply ES in Hj. destruct Hj as (v & V1 & V2). apply (s_eps _ _ _ _ _ _ Hsim _ _ S1) in V1.
        destruct V1 as [V1|(b & s & Hb & Hkb & Hs & V1)]; [left; apply EB; eauto|right].
        destruct (sim_near _ _ _ _ _ _ Hia Hsim _ _ S1 Hkb Hb) as (_ & Hbn & _). destruct (s_start _ _ _ _ _ _ Hsim b s Hbn Hb Hs) as (Hsn & Hen & _).
        assert (Hbc : b <> c) by (intros ->; rewrite a_c in Hb; discriminate). pose proof (start_c s (proj2 Hsn) Hen) as Hsc.
        exists (r b), (r s). unfold kB, kS. rewrite (ur b Hbc). split; [exact Hb|]. split; [apply EB; eauto|]. split; [eauto|].
        destruct (QS (r s) (r_lt s (proj2 Hsn))) as (_ & _ & _ & _ & _ & _ & ES'). apply ES'. rewrite (ur s Hsc). eauto.
      + intros [Hj|(b' & s' & HB & Hj & (s & Hs & ->) & Hj2)].
        * apply EB in Hj. destruct Hj as (v & V1 & V2). apply ES. exists v. split; [|exact V2]. apply (sim_near_in _ _ _ _ _ _ Hsim _ _ S1 V1).
        * apply EB in Hj. destruct Hj as (v & V1 & V2). pose proof (ia_bound _ _ _ _ _ Hia S1 V1) as Hv. fold n in Hv.
          assert (Hb'n : b' < n - 1) by (rewrite <- V2; apply r_lt; exact Hv). destruct (u_lt b' Hb'n) as (U1 & U2 & U3).
          unfold kB in HB. rewrite <- U3 in V2. apply rr in V2.
          assert (Hvb : v = u b').
          { destruct V2 as [?|[[_ F]|[_ F]]]; [assumption|rewrite F, a_e in HB; discriminate|contradiction]. }
          rewrite Hvb in V1. destruct (s_start _ _ _ _ _ _ Hsim _ s U1 HB Hs) as (Hsn & Hen & _). pose proof (start_c s (proj2 Hsn) Hen) as Hsc.
          destruct (QS (r s) (r_lt s (proj2 Hsn))) as (_ & _ & _ & _ & _ & _ & ES'). apply ES' in Hj2. rewrite (ur s Hsc) in Hj2. destruct Hj2 as (w & W1 & W2).
          apply ES. exists w. split; [|exact W2]. apply (s_eps _ _ _ _ _ _ Hsim _ _ S1). right. exists (u b'), s. auto.
    - intros m s' Hm HB (s & Hs & ->). unfold kB in HB. destruct (u_lt m Hm) as (U1 & U2 & U3).
      destruct (s_start _ _ _ _ _ _ Hsim _ s U1 HB Hs) as (Hsn & Hen & Ls0). fold n in Hsn. pose proof (start_c s (proj2 Hsn) Hen) as Hsc.
      destruct (entry_c sb L H e c _ _ _ Hia pair_sb nblk s (proj2 Hsn) Hen) as [_ Hen'].
      split; [|split; [exact Hen'|]].
      + split; [|apply r_lt; apply Hsn]. rewrite <- U3. pose proof (remap_order e c (u m) Hec). pose proof (remap_order e c s Hec). unfold r. lia.
      + unfold cL. fold u. rewrite (ur s Hsc), Ls0. cbn [orb]. pose proof (remap_order e c s Hec) as RO. fold r in RO.
        destruct (Nat.eqb_spec c (S (S e))), (Nat.eqb_spec (r s) (S e)); try reflexivity. exfalso. assert (s = S e) by lia. subst s.
        pose proof (Hen e ltac:(lia)). lia.
    - intros m Hm HB. unfold kB in HB. destruct (u_lt m Hm) as (U1 & U2 & U3).
      destruct (s_split _ _ _ _ _ _ Hsim _ U1 HB) as (F & G & C & D & HF & HG). set (b := u m) in *.
      assert (C' : forall t, t <> b -> (E st b t <-> G t \/ F t)) by (intros t Ht; rewrite (C t Ht); split; intros [?|?]; auto).
      assert (D' : forall t, G t -> F t -> False) by (intros t ? ?; eapply D; eauto).
      pose proof (split_c_e b F G U1 HB C D HF HG) as Fce. pose proof (split_c_e b G F U1 HB C' D' HG HF) as Gce.
      assert (Fn : forall t, F t -> t < n).
      { intros t Ht. apply (sim_bound _ _ _ _ _ _ Hia Hsim b t U1). apply C; [|auto]. intros ->. exact (h_b _ _ _ _ HF Ht). }
      assert (Gn : forall t, G t -> t < n).
      { intros t Ht. apply (sim_bound _ _ _ _ _ _ Hia Hsim b t U1). apply C; [|auto]. intros ->. exact (h_b _ _ _ _ HG Ht). }
      exists (fun j => exists v, F v /\ r v = j), (fun j => exists v, G v /\ r v = j). rewrite <- U3.
      destruct (QS m Hm) as (_ & _ & _ & _ & _ & _ & ES). cbv zeta in ES. fold b in ES.
      split; [|split; [|split]].
      + intros j Hj. rewrite U3. rewrite (ES j). split.
        * intros (v & V1 & V2). assert (v <> b) by congruence. apply C in V1; [|assumption]. destruct V1; [left|right]; eauto.
        * intros [(v & V1 & <-)|(v & V1 & <-)]; exists v; split; auto; apply C; auto; intros ->; congruence.
      + intros j (v & V1 & V2) (w & W1 & W2). rewrite <- W2 in V2. apply rr in V2. destruct V2 as [->|[[-> ->]|[-> ->]]].
        * exact (D w V1 W1).
        * exact (D e (Fce V1) W1).
        * exact (D e V1 (Gce W1)).
      + apply c_half; auto. exact (h_cl _ _ _ _ HG).
      + apply c_half; auto. exact (h_cl _ _ _ _ HF).
  Qed.
End collapse.

(** ** The loops *)
Definition tracked (nblk : nat) (st : list state) : Prop :=
  exists sb L H B SS, nfa_ok nblk sb /\ ia sb L H /\ sim st sb L H B SS.

Lemma prune_tracked nblk st : nfa_ok nblk st -> tracked nblk st ->
  prune_safe nblk st = true /\ forall st' nb, prune_epsilon_pairs nblk st = Ok (st', nb) -> tracked nb st'.
Proof.
  intros Hok (sb & L & H & B & SS & Hokb & Hia & Hsim). pose proof (o_cap _ _ Hokb) as Hcap.
  destruct (fold_result sb L H nblk Hia Hcap) as (p & Ep & Ip).
  pose proof (merge_ok_ia sb L H nblk Hia Hcap p Ip) as Hm. pose proof (sim_merge st sb L H B SS Hia Hsim _ _ Hm) as Hms.
  pose proof (s_len _ _ _ _ _ _ Hsim) as Hl.
  assert (Eps : foldM (prune_step nblk st) (combine (seq 0 (length st)) st) (prune_init (length st)) = Ok p).
  { rewrite (sim_fold st sb L H B SS Hia Hsim nblk _ Hcap), Hl. exact Ep. }
  split.
  - unfold prune_safe. rewrite Eps, Hms. cbn [andb]. apply Nat.eqb_eq. rewrite Hl. apply (prune_safe_ia0 sb L H nblk Hia Hcap p Ip).
  - intros st' nb Est. assert (Hsb : prune_safe nblk sb = true) by (eapply prune_interval; eauto).
    destruct (prune_ok nblk sb Hokb Hsb) as (sb' & E2 & H2 & L2 & _).
    assert (Hbd : forall u m, nth_error (state_map p) u = Some m -> m < length sb).
    { intros u m Hu. apply (smap_inv sb L H p Ip) in Hu. destruct Hu as [Hu ->].
      pose proof (M_slots sb L H nblk Hia Hcap p Ip u Hu). pose proof (slots_len sb L H nblk Hia Hcap p Ip). lia. }
    pose proof (prune_rel nblk sb p sb' _ Hokb Hm Ep E2 Hbd) as Rsb.
    pose proof (prune_rel nblk st p st' nb Hok Hms Eps Est ltac:(intros u m Hu; rewrite Hl; eapply Hbd; exact Hu)) as Rst.
    pose proof (prune_sim st sb L H B SS nblk Hia Hsim Hcap p Ip st' sb' Rst Rsb) as Hsim'.
    assert (Hsst : prune_safe nblk st = true).
    { unfold prune_safe. rewrite Eps, Hms. cbn [andb]. apply Nat.eqb_eq. rewrite Hl. apply (prune_safe_ia0 sb L H nblk Hia Hcap p Ip). }
    destruct (prune_ok nblk st Hok Hsst) as (st2 & E3 & _ & L3 & _). rewrite E3 in Est. injection Est as <- <-.
    pose proof (s_len _ _ _ _ _ _ Hsim') as Hl'. exists sb'. do 4 eexists. split; [|split; [|exact Hsim']].
    + rewrite Hl'. exact H2.
    + apply (prune_ia sb L H nblk Hia Hcap p Ip sb' Rsb).
Qed.

Lemma collapse_loop_tracked nblk fuel : forall i st, nfa_ok nblk st -> tracked nblk st -> length st <= fuel + i ->
  collapse_loop_safe fuel nblk i st = true /\ forall st', collapse_loop fuel nblk i st = Ok st' -> tracked nblk st'.
Proof.
  induction fuel as [|fuel IH]; intros i st Hok HT Hf; cbn [collapse_loop collapse_loop_safe].
  - destruct (Nat.ltb_spec i (length st)); [lia|]. split; [reflexivity|]. intros st' E. injection E as <-. exact HT.
  - destruct (Nat.ltb_spec i (length st)) as [Hi|Hi].
    2:{ split; [reflexivity|]. intros st' E. injection E as <-. exact HT. }
    destruct (find_pair_ok nblk st i (seq 0 (length st)) Hok Hi) as (r & Hr & Hpair).
    { apply Forall_forall. intros j Hj. apply in_seq in Hj. lia. }
    rewrite Hr. cbn [bind]. destruct r as [[e c]|].
    + destruct (Hpair _ _ eq_refl) as (xe & xc & xn & HP).
      destruct HT as (sb & L & H & B & SS & Hokb & Hia & Hsim).
      assert (Hs : collapse_safe c st = true) by (eapply collapse_safe_sim; eauto). rewrite Hs. cbn [andb].
      destruct (collapse_ok nblk st e c xe xc xn Hok HP Hs) as (st1 & H1 & H2 & H3 & _). rewrite H1. cbn [bind].
      pose proof (pair_sb st sb L H B SS Hia Hsim e c xe xc xn HP) as HPb.
      pose proof (collapse_safe_ia sb L H e c _ _ _ Hia HPb) as Hsb.
      destruct (collapse_ok nblk sb e c _ _ _ Hokb HPb Hsb) as (sb1 & B1 & B2 & B3 & _).
      eapply IH; [exact H2| |lia]. exists sb1. do 4 eexists. split; [exact B2|]. split.
      * eapply (collapse_ia sb L H e c); eauto.
      * eapply (collapse_sim st sb L H B SS Hia Hsim e c xe xc xn HP nblk st1 sb1); assumption.
    + eapply IH; eauto. lia.
Qed.

Lemma tracked_closed nblk st i j : tracked nblk st -> i < length st -> reach st i j -> E st i j.
Proof.
  intros (sb & L & H & B & SS & Hokb & Hia & Hsim) Hi P. pose proof (s_len _ _ _ _ _ _ Hsim) as Hl. rewrite Hl in Hi.
  unfold reach in P. remember (@nil char) as w eqn:Ew. revert Hi Ew. induction P as [s|s t w r He P IH|s c t w r He P IH]; intros Hi Ew.
  - apply (sim_refl _ _ _ _ _ _ Hia Hsim s Hi).
  - apply edge0 in He. destruct He as (x & Hx & Hm). rewrite <- (X_of _ _ _ Hx) in Hm. fold (E st s t) in Hm.
    apply (sim_trans _ _ _ _ _ _ Hia Hsim s t r Hi Hm). apply IH; [|exact Ew]. apply (sim_bound _ _ _ _ _ _ Hia Hsim s t Hi Hm).
  - discriminate.
Qed.
Lemma tracked_closure nblk st : nfa_ok nblk st -> tracked nblk st -> epsilon_transitive_closure nblk st = Ok st.
Proof.
  intros Hok HT.
  assert (Hc : in_cap nblk st).
  { split; [apply Hok|]. intros i x j Hx Hj. destruct (o_rng _ _ Hok _ _ Hx) as [_ H2]. specialize (H2 _ Hj).
    pose proof (o_cap _ _ Hok). lia. }
  destruct (closure_ok nblk st Hc) as (st' & He & Hl & Hs). rewrite He. f_equal. apply nth_ext'; [exact Hl|].
  intros i y x Hy Hx. destruct (Hs _ _ Hx) as (y' & Hy' & Hcy & Hny & Hey). assert (y' = y) by congruence. subst y'.
  assert (Hi : i < length st) by (eapply nth_lt; exact Hx).
  assert (Hee : eps y = eps x).
  { apply mem_ext. intros j. rewrite <- (X_of _ _ _ Hx). apply eq_true_iff_eq. rewrite Hey. split.
    - intros P. exact (tracked_closed nblk st i j HT Hi P).
    - intros Hj. eapply path_eps; [|constructor]. apply edge0. exists x. split; [exact Hx|]. rewrite <- (X_of _ _ _ Hx). exact Hj. }
  destruct x, y. cbn in *. congruence.
Qed.

Lemma optimize_tracked fuel : forall nblk st st1, nfa_ok nblk st -> epsilon_transitive_closure nblk st = Ok st1 ->
  tracked nblk st1 -> optimize_loop_safe fuel nblk st = true.
Proof.
  induction fuel as [|fuel IH]; intros nblk st st1 Hok E1 HT; cbn [optimize_loop_safe]; [reflexivity|].
  destruct (closure_nfa nblk st Hok) as (st1' & E1' & H1 & Hc1 & L1 & A1). assert (st1' = st1) by congruence. subst st1'. clear E1'.
  rewrite E1. destruct (prune_tracked nblk st1 H1 HT) as [Hs Hp]. rewrite Hs. cbn [andb].
  destruct (prune_ok nblk st1 H1 Hs) as (st2 & E2 & H2 & L2 & Q2 & A2). rewrite E2. pose proof (Hp _ _ E2) as HT2.
  destruct (collapse_loop_tracked (blocks_for (length st2)) (length st2) 0 st2 H2 HT2 ltac:(lia)) as [Hs2 Hc2]. rewrite Hs2. cbn [andb].
  destruct (collapse_loop_ok (blocks_for (length st2)) (length st2) 0 st2 H2 ltac:(lia) Hs2) as (st3 & E3 & H3 & L3 & Q3 & A3).
  unfold collapse_epsilon_char_pairs. rewrite E3. pose proof (Hc2 _ E3) as HT3.
  destruct (length st3 =? length st); [reflexivity|].
  unfold shrink_bitsets. destruct (forallb _ st3); [|reflexivity].
  assert (Hok3 : forall s, nfa_ok (blocks_for (length st2)) s -> length s = length st3 -> nfa_ok (blocks_for (length st3)) s).
  { intros s [B1 B2 B3 B4] Hl. split; auto. rewrite Hl. apply blocks_for_cap. }
  assert (HT3' : tracked (blocks_for (length st3)) st3).
  { destruct HT3 as (sb & L & H & B & SS & Hokb & Hia & Hsim). exists sb, L, H, B, SS. split; [|auto].
    apply Hok3; [exact Hokb|]. symmetry. apply (s_len _ _ _ _ _ _ Hsim). }
  pose proof (Hok3 st3 H3 eq_refl) as Hok3'.
  eapply (IH _ st3 st3); [exact Hok3'|apply tracked_closure; assumption|exact HT3'].
Qed.
