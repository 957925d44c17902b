(** The automaton of a pattern with alternatives, without what the states in front of alternatives
    reach, is an interval automaton; with it, it is simulated ([AltSim]): its optimisation is harmless. *)
From Verif Require Export AltShape.

(** ** The closure of an automaton with intervals *)
Section closing.
  Variables (st st1 : list state) (n0 : nat).
  Hypothesis st_len : length st = S n0.
  Hypothesis Hlen : length st1 = length st.
  Hypothesis Hst1 : forall i x, nth_error st i = Some x -> exists y, nth_error st1 i = Some y /\
    chars y = chars x /\ next y = next x /\ forall j, mem (eps y) j = true <-> reach st i j.
  Definition clear_at (q : nat) : Prop := forall k j, k < S n0 -> mem (eps (X st k)) j = true -> (k < q <-> j < q).
  Hypothesis st_cases : forall i, i < S n0 ->
    (i < n0 /\ eps (X st i) = 0%N /\ next (X st i) = S i) \/
    (i < n0 /\ isemp st i = true /\ exists u, i < u <= n0 /\ forall j, mem (eps (X st i)) j = true <-> i < j <= u) \/
    (i < n0 /\ isemp st i = true /\ 1 <= i /\ eps (X st (i - 1)) = 0%N /\ next (X st (i - 1)) = i /\
       forall j, mem (eps (X st i)) j = true <-> j = S i \/ S j = i) \/
    (eps (X st i) = 0%N /\ clear_at (S i) /\ (next (X st i) = i \/ (i < next (X st i) < S n0 /\ clear_at (next (X st i))))).
  Hypothesis st_fin : isemp st n0 = false /\ next (X st n0) = n0.

  Definition aloops (i : nat) : bool := existsb (fun j => S j =? i) (ones (eps (X st i))).
  Lemma aloops_spec i : aloops i = true <-> 1 <= i /\ mem (eps (X st i)) (i - 1) = true.
  Proof.
    unfold aloops. rewrite existsb_exists. split.
    - intros (j & Hj & E). apply Nat.eqb_eq in E. apply in_ones in Hj. subst i. rewrite Nat.sub_succ, Nat.sub_0_r. split; [lia|exact Hj].
    - intros [H1 H2]. exists (i - 1). split; [apply in_ones; exact H2|]. apply Nat.eqb_eq. lia.
  Qed.

  Lemma reach_step i j k : i < S n0 -> mem (eps (X st i)) j = true -> reach st j k -> reach st i k.
  Proof.
    intros Hi Hm P. eapply path_eps; [|exact P]. apply edge0. exists (X st i). split; [|exact Hm]. apply X_nth. rewrite st_len. exact Hi.
  Qed.
  Lemma reach_inv i k : reach st i k -> i = k \/ exists j, i < S n0 /\ mem (eps (X st i)) j = true /\ reach st j k.
  Proof.
    intros P. unfold reach in P. inversion P as [s|s t w' r He P'|]; subst; [auto|].
    right. apply edge0 in He. destruct He as (x & Hx & Hm). exists t. rewrite (X_of _ _ _ Hx). split; [|split; [exact Hm|exact P']].
    rewrite <- st_len. eapply nth_lt; exact Hx.
  Qed.
  Lemma reach_dead i k : i < S n0 -> eps (X st i) = 0%N -> reach st i k -> i = k.
  Proof.
    intros Hi He P. destruct (reach_inv _ _ P) as [F|(j & _ & F & _)]; [exact F|]. rewrite He, mem_0 in F. discriminate.
  Qed.

  (** Everything between a state and a state it reaches is reached. *)
  Lemma reach_low i j : i < S n0 -> reach st i j -> j < S n0 /\ (i <= j \/ (S j = i /\ aloops i = true)).
  Proof.
    intros Hi P. unfold reach in P. remember (@nil char) as w eqn:Ew. revert Hi Ew.
    induction P as [s|s t w r He P IH|s c t w r He P IH]; intros Hi Ew; [split; [exact Hi|auto]| |discriminate].
    apply edge0 in He. destruct He as (x & Hx & Hm). rewrite <- (X_of _ _ _ Hx) in Hm. subst w.
    destruct (st_cases s Hi) as [(_ & F & _)|[(C1 & C2 & u & C3 & C4)|[(C1 & C2 & C3 & C4 & C5 & C6)|(F & _)]]].
    - rewrite F, mem_0 in Hm. discriminate.
    - apply C4 in Hm. destruct (IH ltac:(lia) eq_refl) as [H1 H2]. split; [exact H1|]. left. lia.
    - pose proof Hm as Hm'. apply C6 in Hm. destruct Hm as [->|Hm].
      + destruct (IH ltac:(lia) eq_refl) as [H1 H2]. split; [exact H1|]. left. lia.
      + assert (t = s - 1) by lia. subst t. assert (s - 1 = r) by (apply (reach_dead (s - 1) r ltac:(lia) C4 P)). subst r.
        split; [lia|]. right. split; [lia|]. apply aloops_spec. split; [lia|exact Hm'].
    - rewrite F, mem_0 in Hm. discriminate.
  Qed.
  Lemma reach_convex i j k : i < S n0 -> reach st i j -> i <= k <= j -> reach st i k.
  Proof.
    intros Hi P Hk. unfold reach in P. remember (@nil char) as w eqn:Ew. revert Hi Ew Hk.
    induction P as [s|s t w r He P IH|s c t w r He P IH]; intros Hi Ew Hk; [|subst w|discriminate].
    { replace k with s by lia. constructor. }
    destruct (Nat.eq_dec s k) as [->|Hne]; [constructor|].
    apply edge0 in He. destruct He as (x & Hx & Hm). rewrite <- (X_of _ _ _ Hx) in Hm.
    destruct (st_cases s Hi) as [(_ & F & _)|[(C1 & C2 & u & C3 & C4)|[(C1 & C2 & C3 & C4 & C5 & C6)|(F & _)]]].
    - rewrite F, mem_0 in Hm. discriminate.
    - apply C4 in Hm. destruct (Nat.le_gt_cases t k) as [C|C].
      + eapply (reach_step s t); [exact Hi|apply C4; lia|]. apply IH; [lia|reflexivity|lia].
      + eapply (reach_step s k); [exact Hi|apply C4; lia|constructor].
    - pose proof Hm as Hm'. apply C6 in Hm. destruct Hm as [->|Hm].
      + eapply (reach_step s (S s)); [exact Hi|exact Hm'|]. apply IH; [lia|reflexivity|lia].
      + assert (t = s - 1) by lia. subst t. assert (s - 1 = r) by (apply (reach_dead (s - 1) r ltac:(lia) C4 P)). lia.
    - rewrite F, mem_0 in Hm. discriminate.
  Qed.

  Lemma st1_at i : i < S n0 -> chars (X st1 i) = chars (X st i) /\ next (X st1 i) = next (X st i) /\
    forall j, mem (eps (X st1 i)) j = true <-> reach st i j.
  Proof.
    intros Hi. assert (Hx : nth_error st i = Some (X st i)) by (apply X_nth; rewrite st_len; exact Hi).
    destruct (Hst1 _ _ Hx) as (y & Hy & H1). rewrite (X_of _ _ _ Hy). exact H1.
  Qed.
  Definition ahigh (i : nat) : nat := list_max (ones (eps (X st1 i))).
  Lemma ahigh_spec i : i < S n0 -> reach st i (ahigh i) /\ forall j, reach st i j -> j <= ahigh i.
  Proof.
    intros Hi. destruct (st1_at i Hi) as (_ & _ & E).
    assert (Hub : forall j, reach st i j -> j <= ahigh i).
    { intros j P. apply E in P. apply in_ones in P. unfold ahigh.
      pose proof (proj1 (list_max_le (ones (eps (X st1 i))) (list_max (ones (eps (X st1 i))))) (le_n _)) as F.
      rewrite Forall_forall in F. apply F. exact P. }
    split; [|exact Hub]. apply E. unfold ahigh.
    assert (Hin : forall l, l <> [] -> In (list_max l) l).
    { clear. induction l as [|a l IH]; [congruence|]. intros _. cbn [list_max fold_right].
      change (fold_right Nat.max 0 l) with (list_max l).
      destruct (Nat.max_spec a (list_max l)) as [[F1 F2]|[F1 F2]]; rewrite F2; [|left; reflexivity].
      right. apply IH. intros ->. cbn in F1. lia. }
    apply in_ones. apply Hin. intros F. assert (Hm : mem (eps (X st1 i)) i = true) by (apply E; constructor).
    apply in_ones in Hm. rewrite F in Hm. destruct Hm.
  Qed.

  Lemma reach_clear q i j : clear_at q -> reach st i j -> (i < q <-> j < q).
  Proof.
    intros Hc P. unfold reach in P. remember (@nil char) as w eqn:Ew. revert Ew.
    induction P as [s|s t w r He P IH|s c t w r He P IH]; intros Ew; [reflexivity|subst w|discriminate].
    apply edge0 in He. destruct He as (x & Hx & Hm). rewrite <- (X_of _ _ _ Hx) in Hm.
    pose proof (Hc s t ltac:(rewrite <- st_len; eapply nth_lt; exact Hx) Hm). specialize (IH eq_refl). lia.
  Qed.
  Lemma no_loop_at q : clear_at q -> aloops q = false.
  Proof.
    intros Hc. destruct (aloops q) eqn:Lp; [|reflexivity]. apply aloops_spec in Lp. destruct Lp as [L1 L2]. exfalso.
    destruct (Nat.lt_ge_cases q (S n0)) as [C|C].
    - pose proof (Hc q (q - 1) C L2). lia.
    - unfold X in L2. rewrite nth_overflow in L2 by lia. change (eps state_new) with 0%N in L2. rewrite mem_0 in L2. discriminate.
  Qed.
  Lemma entry_at q : q < S n0 -> clear_at q -> entry ahigh q.
  Proof. intros Hq Hc k Hk. destruct (ahigh_spec k ltac:(lia)) as [P _]. apply (reach_clear q k _ Hc P). exact Hk. Qed.
  Lemma far_at i t : i < S n0 -> clear_at (S i) -> (t = i \/ (i < t < S n0 /\ clear_at t)) -> far_next (S n0) aloops ahigh i t.
  Proof.
    intros Hi Hc Ht. split; [|split].
    - intros k Hk. destruct (ahigh_spec k ltac:(lia)) as [P _]. apply (reach_clear (S i) k _ Hc) in P. lia.
    - intros _. apply no_loop_at. exact Hc.
    - destruct Ht as [Ht|[H1 H2]]; [auto|]. right. split; [exact H1|]. apply entry_at; [lia|exact H2].
  Qed.

  Lemma erased_ia : ia st1 aloops ahigh.
  Proof.
    assert (Hl1 : length st1 = S n0) by (rewrite Hlen; apply st_len).
    assert (Hem : forall i, i < S n0 -> isemp st1 i = isemp st i).
    { intros i Hi. unfold isemp. rewrite (proj1 (st1_at i Hi)). reflexivity. }
    assert (Hhi : forall i, i < S n0 -> i <= ahigh i < S n0).
    { intros i Hi. destruct (ahigh_spec i Hi) as [P Q]. split; [apply Q; constructor|]. apply (reach_low i _ Hi P). }
    assert (Hnl : forall i, i < S n0 -> eps (X st i) = 0%N -> aloops i = false).
    { intros i Hi F. destruct (aloops i) eqn:Lp; [|reflexivity]. apply aloops_spec in Lp. rewrite F, mem_0 in Lp. destruct Lp; discriminate. }
    assert (Hdead : forall i, i < S n0 -> eps (X st i) = 0%N -> ahigh i = i).
    { intros i Hi F. symmetry. apply (reach_dead i _ Hi F). apply (ahigh_spec i Hi). }
    assert (Hlp : forall i, i < S n0 -> aloops i = true -> i < n0 /\ isemp st i = true /\ 1 <= i /\ eps (X st (i - 1)) = 0%N /\ next (X st (i - 1)) = i /\
       forall j, mem (eps (X st i)) j = true <-> j = S i \/ S j = i).
    { intros i Hi Lp. pose proof Lp as Lp'. apply aloops_spec in Lp. destruct Lp as [P1 P2].
      destruct (st_cases i Hi) as [(_ & F & _)|[(C1 & C2 & u & C3 & C4)|[C|(F & _)]]]; [|apply C4 in P2; lia|exact C|];
      rewrite F, mem_0 in P2; discriminate. }
    assert (Hstep : forall i j, i < S n0 -> mem (eps (X st i)) j = true -> j <= ahigh i).
    { intros i j Hi Hm. apply (ahigh_spec i Hi). apply (reach_step i j j Hi Hm). constructor. }
    split; rewrite ?Hl1.
    - lia.
    - intros i Hi j. destruct (st1_at i Hi) as (_ & _ & E). rewrite E. destruct (ahigh_spec i Hi) as [P Q]. split.
      + intros R. split; [|apply Q; exact R]. destruct (reach_low i j Hi R) as [_ [C|[C1 C2]]]; [lia|]. rewrite C2. cbn [b2n]. lia.
      + intros [R1 R2]. destruct (Nat.le_gt_cases i j) as [C|C].
        * apply (reach_convex i (ahigh i)); [exact Hi|exact P|lia].
        * destruct (aloops i) eqn:Lp; cbn [b2n] in R1; [|lia]. apply aloops_spec in Lp. destruct Lp as [L1 L2].
          replace j with (i - 1) by lia. apply (reach_step i (i - 1)); [exact Hi|exact L2|constructor].
    - exact Hhi.
    - intros i j Hi Hj. pose proof (Hhi i Hi). destruct (ahigh_spec i Hi) as [P Q]. destruct (ahigh_spec j ltac:(lia)) as [P' _].
      apply Q. unfold reach. apply (path_app (edge 0 st) i [] j [] (ahigh j)); [|exact P']. apply (reach_convex i (ahigh i)); [exact Hi|exact P|lia].
    - intros i Hi Lp. destruct (Hlp i Hi Lp) as (C1 & C2 & C3 & C4 & C5 & C6). split; [exact C3|].
      split; [apply Hnl; [lia|exact C4]|]. rewrite (Hdead (i - 1) ltac:(lia) C4), (Hem i Hi).
      pose proof (Hstep i (S i) Hi ltac:(apply C6; auto)). split; [lia|]. split; [exact C2|lia].
    - intros i Hi Hch. rewrite (Hem i Hi) in Hch. rewrite (proj1 (proj2 (st1_at i Hi))).
      destruct (st_cases i Hi) as [(C1 & C2 & C3)|[(C1 & C2 & u & C3 & C4)|[(C1 & C2 & C3 & C4 & C5 & C6)|(C2 & C3 & C4)]]].
      + left. split; [exact C3|lia].
      + exfalso. pose proof (Hstep i (S i) Hi ltac:(apply C4; lia)). destruct Hch as [F|[F _]]; [congruence|lia].
      + exfalso. pose proof (Hstep i (S i) Hi ltac:(apply C6; auto)). destruct Hch as [F|[F _]]; [congruence|lia].
      + right; right. apply far_at; [exact Hi|exact C3|]. exact C4.
    - intros i Hi Lp _. destruct (Hlp i Hi Lp) as (C1 & C2 & C3 & C4 & C5 & C6). rewrite (proj1 (proj2 (st1_at (i - 1) ltac:(lia)))). exact C5.
    - rewrite Nat.sub_succ, Nat.sub_0_r. assert (Hi : n0 < S n0) by lia. rewrite (Hem _ Hi), (proj1 (proj2 (st1_at _ Hi))). exact st_fin.
  Qed.

End closing.

(** ** Without the alternatives *)
Section erased.
  Variables (A : list (bool * state)) (n0 nblk : nat) (cf : charset).
  Let st := states_of A.
  Definition erase (i : nat) : state := if bar A i then mkState 0 cf i else Q A i.
  Definition erased : list state := map erase (seq 0 (length A)).
  Let sb := erased.
  Hypothesis Hcf : cf <> EMPTY.
  Hypothesis HA : length A = S n0.
  Hypothesis Hok : nfa_ok nblk st.
  Hypothesis Hf : forall i, i < n0 -> fact A n0 i.
  Hypothesis Hfin : At A n0 = (false, new_transition cf n0).

  Lemma e_len : length st = S n0 /\ length sb = S n0.
  Proof. unfold st, sb, erased. rewrite states_of_length, map_length, seq_length. auto. Qed.
  Lemma e_st i : i < S n0 -> X st i = Q A i.
  Proof.
    intros Hi. unfold X, st, states_of, Q, At. change state_new with (snd (false, state_new)). apply map_nth.
  Qed.
  Lemma e_sb i : i < S n0 -> X sb i = erase i.
  Proof.
    intros Hi. apply X_of. unfold sb, erased. rewrite nth_error_map, seq_at' by lia. reflexivity.
  Qed.
  Lemma e_rng i : i < S n0 -> next (Q A i) < S n0 /\ forall j, Ec A i j -> j < S n0.
  Proof.
    intros Hi. destruct e_len as [E1 _]. assert (Hx : nth_error st i = Some (X st i)) by (apply X_nth; lia).
    destruct (o_rng _ _ Hok _ _ Hx) as [G1 G2]. rewrite e_st in G1, G2 by exact Hi. rewrite E1 in *. auto.
  Qed.
  Lemma e_edge k j : k < S n0 -> mem (eps (X sb k)) j = true -> bar A k = false /\ Ec A k j.
  Proof.
    intros Hk Hm. rewrite e_sb in Hm by exact Hk. unfold erase in Hm. destruct (bar A k); [cbn [eps] in Hm; rewrite mem_0 in Hm; discriminate|]. auto.
  Qed.
  Lemma e_clear q : gap A q -> clear_at sb n0 q.
  Proof.
    intros [G1 G2] k j Hk Hm. destruct (e_edge k j Hk Hm) as [H1 H2]. split; intros C.
    - apply (G1 k j C H1 H2).
    - destruct (Nat.lt_ge_cases k q) as [D|D]; [exact D|]. pose proof (G2 k j D H2). lia.
  Qed.
  Lemma e_bar b : b < S n0 -> bar A b = true -> barrier A b.
  Proof.
    intros Hb Hbar. assert (b < n0). { destruct (Nat.eq_dec b n0) as [->|]; [unfold bar in Hbar; rewrite Hfin in Hbar; discriminate|lia]. }
    apply (Hf b); assumption.
  Qed.

  Lemma e_cases i : i < S n0 ->
    (i < n0 /\ eps (X sb i) = 0%N /\ next (X sb i) = S i) \/
    (i < n0 /\ isemp sb i = true /\ exists u, i < u <= n0 /\ forall j, mem (eps (X sb i)) j = true <-> i < j <= u) \/
    (i < n0 /\ isemp sb i = true /\ 1 <= i /\ eps (X sb (i - 1)) = 0%N /\ next (X sb (i - 1)) = i /\
       forall j, mem (eps (X sb i)) j = true <-> j = S i \/ S j = i) \/
    (eps (X sb i) = 0%N /\ clear_at sb n0 (S i) /\ (next (X sb i) = i \/ (i < next (X sb i) < S n0 /\ clear_at sb n0 (next (X sb i))))).
  Proof.
    intros Hi. destruct (Nat.eq_dec i n0) as [Hn|Hn].
    - right; right; right. rewrite e_sb by exact Hi. subst i. unfold erase, bar, Q. rewrite Hfin. cbn [fst snd new_transition eps next]. split; [reflexivity|]. split; [|auto].
      intros k j Hk Hm. destruct (e_edge k j Hk Hm) as [H1 H2]. pose proof (proj2 (e_rng k Hk) j H2). lia.
    - assert (Hlt : i < n0) by lia. destruct (bar A i) eqn:Hb.
      + right; right; right. destruct (e_bar i Hi Hb) as (_ & G & _). rewrite e_sb by exact Hi. unfold erase. rewrite Hb. cbn [eps next].
        split; [reflexivity|]. split; [apply e_clear; exact G|auto].
      + assert (Ei : X sb i = Q A i) by (rewrite e_sb by exact Hi; unfold erase; rewrite Hb; reflexivity). unfold isemp. rewrite Ei.
        destruct (proj2 (Hf i Hlt) Hb) as [[S1 S2]|[(S1 & u & S2 & S3)|[(S1 & S2 & S3 & S4 & S5 & S6)|(S1 & S2 & S3)]]].
        * left. auto.
        * right; left. split; [exact Hlt|]. split; [apply N.eqb_eq; exact S1|]. exists u. split; [exact S2|exact S3].
        * right; right; left. split; [exact Hlt|]. split; [apply N.eqb_eq; exact S1|]. split; [exact S2|].
          assert (Ej : X sb (i - 1) = Q A (i - 1)) by (rewrite e_sb by lia; unfold erase; rewrite S3; reflexivity). rewrite Ej. auto.
        * right; right; right. split; [exact S1|]. split; [apply e_clear; exact S2|]. destruct S3 as [S3|[S3 S4]]; [auto|]. right. split; [|apply e_clear; exact S4].
          split; [exact S3|apply e_rng; exact Hi].
  Qed.
  Lemma e_fin : isemp sb n0 = false /\ next (X sb n0) = n0.
  Proof.
    unfold isemp. rewrite !e_sb by lia. unfold erase, bar, Q. rewrite Hfin. cbn. split; [apply N.eqb_neq; exact Hcf|reflexivity].
  Qed.
  Lemma e_nfa : nfa_ok nblk sb.
  Proof.
    destruct e_len as [E1 E2]. split; rewrite ?E2; [lia|rewrite <- E1; apply Hok| |].
    - intros i x Hx. assert (Hi : i < S n0) by (rewrite <- E2; eapply nth_lt; exact Hx). rewrite <- (X_of _ _ _ Hx), e_sb by exact Hi.
      unfold erase. destruct (bar A i); [cbn [next eps]; split; [exact Hi|intros j Hj; rewrite mem_0 in Hj; discriminate]|]. apply e_rng. exact Hi.
    - rewrite Nat.sub_succ, Nat.sub_0_r. exists (X sb n0). split; [apply X_nth; lia|]. destruct e_fin as [G1 G2]. split; [apply N.eqb_neq; exact G1|exact G2].
  Qed.

  Variables st1 sb1 : list state.
  Hypothesis L1 : length st1 = length st.
  Hypothesis Hst1 : forall i x, nth_error st i = Some x -> exists y, nth_error st1 i = Some y /\
    chars y = chars x /\ next y = next x /\ forall j, mem (eps y) j = true <-> reach st i j.
  Hypothesis Lb1 : length sb1 = length sb.
  Hypothesis Hsb1 : forall i x, nth_error sb i = Some x -> exists y, nth_error sb1 i = Some y /\
    chars y = chars x /\ next y = next x /\ forall j, mem (eps y) j = true <-> reach sb i j.

  Definition lp : nat -> bool := aloops sb.
  Definition hi : nat -> nat := ahigh sb1.
  Lemma e_ia : ia sb1 lp hi.
  Proof. eapply (erased_ia sb sb1 n0); [apply e_len|exact Lb1|exact Hsb1|exact e_cases|exact e_fin]. Qed.

  (** ** With the alternatives *)
  Lemma c_st1 i : i < S n0 -> chars (X st1 i) = chars (Q A i) /\ next (X st1 i) = next (Q A i) /\ forall j, E st1 i j <-> reach st i j.
  Proof.
    intros Hi. assert (Hx : nth_error st i = Some (X st i)) by (apply X_nth; rewrite (proj1 e_len); exact Hi).
    destruct (Hst1 _ _ Hx) as (y & Hy & H1). unfold E. rewrite (X_of _ _ _ Hy). rewrite e_st in H1 by exact Hi. exact H1.
  Qed.
  Lemma c_sb1 i : i < S n0 -> chars (X sb1 i) = chars (erase i) /\ next (X sb1 i) = next (erase i) /\ forall j, E sb1 i j <-> reach sb i j.
  Proof.
    intros Hi. assert (Hx : nth_error sb i = Some (X sb i)) by (apply X_nth; rewrite (proj2 e_len); exact Hi).
    destruct (Hsb1 _ _ Hx) as (y & Hy & H1). unfold E. rewrite (X_of _ _ _ Hy). rewrite e_sb in H1 by exact Hi. exact H1.
  Qed.
  Lemma st_step i j k : i < S n0 -> Ec A i j -> reach st j k -> reach st i k.
  Proof.
    intros Hi Hm P. eapply path_eps; [|exact P]. apply edge0. exists (X st i). split; [apply X_nth; rewrite (proj1 e_len); exact Hi|]. rewrite e_st by exact Hi. exact Hm.
  Qed.
  Lemma sb_step i j k : i < S n0 -> bar A i = false -> Ec A i j -> reach sb j k -> reach sb i k.
  Proof.
    intros Hi Hb Hm P. eapply path_eps; [|exact P]. apply edge0. exists (X sb i). split; [apply X_nth; rewrite (proj2 e_len); exact Hi|].
    rewrite e_sb by exact Hi. unfold erase. rewrite Hb. exact Hm.
  Qed.
  Lemma st_split_path i t : reach st i t -> i < S n0 ->
    reach sb i t \/ exists b s, bar A b = true /\ b < S n0 /\ reach sb i b /\ Ec A b s /\ reach st s t.
  Proof.
    intros P. unfold reach in P. remember (@nil char) as w eqn:Ew. revert Ew.
    induction P as [s|s j w r He P IH|s c j w r He P IH]; intros Ew Hi; [left; constructor|subst w|discriminate].
    apply edge0 in He. destruct He as (x & Hx & Hm). rewrite <- (X_of _ _ _ Hx), e_st in Hm by exact Hi. fold (Ec A s j) in Hm.
    pose proof (proj2 (e_rng s Hi) j Hm) as Hj. destruct (bar A s) eqn:Hb.
    - right. exists s, j. split; [exact Hb|]. split; [exact Hi|]. split; [constructor|]. split; [exact Hm|exact P].
    - destruct (IH eq_refl Hj) as [G|(b & s' & G1 & G2 & G3 & G4)].
      + left. eapply sb_step; eauto.
      + right. exists b, s'. split; [exact G1|]. split; [exact G2|]. split; [eapply sb_step; eauto|exact G4].
  Qed.
  Lemma sb_in_st i t : reach sb i t -> i < S n0 -> reach st i t.
  Proof.
    intros P. unfold reach in P. remember (@nil char) as w eqn:Ew. revert Ew.
    induction P as [s|s j w r He P IH|s c j w r He P IH]; intros Ew Hi; [constructor|subst w|discriminate].
    apply edge0 in He. destruct He as (x & Hx & Hm). rewrite <- (X_of _ _ _ Hx) in Hm. apply e_edge in Hm; [|exact Hi]. destruct Hm as [_ Hm].
    apply (st_step s j r Hi Hm). apply IH; [reflexivity|]. apply (e_rng s Hi). exact Hm.
  Qed.
  Lemma st_trans i j k : reach st i j -> reach st j k -> reach st i k.
  Proof. intros P1 P2. exact (path_app (edge 0 st) i [] j [] k P1 P2). Qed.
  (** A closed range is not left. *)
  Lemma st_range p q i t : (forall i j, p <= i < q -> Ec A i j -> p <= j < q) -> reach st i t -> p <= i < q -> i < S n0 -> p <= t < q /\ t < S n0.
  Proof.
    intros Hc P. unfold reach in P. remember (@nil char) as w eqn:Ew. revert Ew.
    induction P as [s|s j w r He P IH|s c j w r He P IH]; intros Ew Hr Hi; [auto|subst w|discriminate].
    apply edge0 in He. destruct He as (x & Hx & Hm). rewrite <- (X_of _ _ _ Hx), e_st in Hm by exact Hi. fold (Ec A s j) in Hm.
    apply IH; [reflexivity|apply (Hc s j Hr Hm)|]. apply (e_rng s Hi). exact Hm.
  Qed.

  Lemma e_in b i : b < S n0 -> E st1 b i -> i < S n0.
  Proof.
    intros Hb Hi. apply (c_st1 b Hb) in Hi. apply (st_range 0 (S n0) b i); [|exact Hi|lia|exact Hb]. intros u v Hu Hv. split; [lia|]. apply (e_rng u ltac:(lia)). exact Hv.
  Qed.
  Lemma er_reach i j : er A i j -> i < S n0 -> reach st i j.
  Proof. intros H. induction H as [i|i h j He _ IH]; intros Hi; [constructor|]. apply (st_step i h j Hi He). apply IH. apply (e_rng i Hi). exact He. Qed.
  Lemma reach_er i j : reach st i j -> i < S n0 -> er A i j.
  Proof.
    intros P. unfold reach in P. remember (@nil char) as w eqn:Ew. revert Ew.
    induction P as [s|s h w r He P IH|s c h w r He P IH]; intros Ew Hi; [constructor|subst w|discriminate].
    apply edge0 in He. destruct He as (x & Hx & Hm). rewrite <- (X_of _ _ _ Hx), e_st in Hm by exact Hi. fold (Ec A s h) in Hm.
    apply (er_step A s h r Hm). apply IH; [reflexivity|]. apply (e_rng s Hi). exact Hm.
  Qed.
  Lemma e_own i : i < S n0 -> proper st1 i -> bar A i = false /\ own (At A i) i.
  Proof.
    intros Hi Hp. destruct (c_st1 i Hi) as (C1 & C2 & C3).
    assert (Hown : own (At A i) i).
    { destruct Hp as [Hp|Hp]; [left; unfold isemp in Hp; rewrite C1 in Hp; apply N.eqb_neq in Hp; exact Hp|]. right. intros j Hj. apply Hp. apply C3.
      apply (st_step i j j Hi Hj). constructor. }
    split; [|exact Hown]. destruct (bar A i) eqn:Hbi; [|reflexivity]. exfalso. destruct (e_bar i Hi Hbi) as (K1 & _ & _ & _ & s2 & K2 & K3 & _).
    destruct Hown as [Ho|Ho]; [exact (Ho K1)|]. specialize (Ho (S i) K3). lia.
  Qed.
  Lemma e_forward i : i < S n0 -> bar A i = false -> own (At A i) i -> i <= next (Q A i).
  Proof.
    intros Hi Hb Hown. destruct (Nat.eq_dec i n0) as [->|Hne]; [unfold Q; rewrite Hfin; cbn; lia|].
    destruct (proj2 (Hf i ltac:(lia)) Hb) as [[S1 S2]|[(S1 & u & S2 & S3)|[(S1 & S2 & S3 & S4 & S5 & S6)|(S1 & S2 & S3)]]]; [lia| | |lia].
    - exfalso. destruct Hown as [F|F]; [exact (F S1)|]. specialize (F (S i) (proj2 (S3 (S i)) ltac:(lia))). lia.
    - exfalso. destruct Hown as [F|F]; [exact (F S1)|]. specialize (F (S i) (proj2 (S6 (S i)) ltac:(lia))). lia.
  Qed.
  Lemma e_right q i t : RC A q -> reach st i t -> q <= i -> i < S n0 -> q <= t.
  Proof.
    intros HR P Hq Hi. apply (st_range q (S n0) i t); [|exact P|lia|exact Hi]. intros u v Hu Hv. split; [apply (HR u v); [lia|exact Hv]|]. apply (e_rng u ltac:(lia)). exact Hv.
  Qed.
  Definition FF (b s2 t : nat) : Prop := S b <= t < s2 /\ E st1 b t.
  Definition GG (b s2 t : nat) : Prop := s2 <= t /\ E st1 b t.
  (** What the state in front reaches: through the first start, or through the others. *)
  Lemma e_parts b s2 t : b < S n0 -> S b < s2 -> (forall j, Ec A b j -> j = S b \/ s2 <= j) -> (forall u v, S b <= u < s2 -> Ec A u v -> S b <= v < s2) ->
    (forall j, Ec A b j -> gap A j) -> t <> b -> E st1 b t ->
    (FF b s2 t /\ reach st (S b) t) \/ (GG b s2 t /\ exists j, Ec A b j /\ s2 <= j /\ reach st j t).
  Proof.
    intros Hb Hs J4 J5 K3 Ht G. pose proof G as G'. apply (c_st1 b Hb) in G.
    unfold reach in G. inversion G as [s|s j w' r He P'|]; subst; [congruence|].
    apply edge0 in He. destruct He as (x & Hx & Hm). rewrite <- (X_of _ _ _ Hx), e_st in Hm by exact Hb. fold (Ec A b j) in Hm.
    pose proof (proj2 (e_rng b Hb) j Hm) as Hj. destruct (J4 j Hm) as [F|F].
    - left. subst j. split; [|exact P']. split; [|exact G']. apply (st_range (S b) s2 (S b) t J5 P' ltac:(lia) Hj).
    - right. split; [|exists j; auto]. split; [|exact G']. etransitivity; [exact F|]. apply (e_right j j t); [apply (K3 j Hm)|exact P'|lia|exact Hj].
  Qed.
  Lemma e_first b : b < S n0 -> bar A b = true -> exists s2, (forall t, t <> b -> (E st1 b t <-> FF b s2 t \/ GG b s2 t)) /\ half st1 b (FF b s2) (GG b s2) /\ half st1 b (GG b s2) (FF b s2).
  Proof.
    intros Hb Hbar. destruct (e_bar b Hb Hbar) as (K1 & K2 & K3 & K4 & s2 & J1 & J2 & J3 & J4 & J5 & Jn). exists s2.
    pose proof (proj2 (e_rng b Hb) _ J2) as Hb1. pose proof (proj2 (e_rng b Hb) _ J3) as Hb2.
    assert (Hfirst : forall t, FF b s2 t -> reach st (S b) t).
    { intros t Ht. destruct (e_parts b s2 t Hb J1 J4 J5 K3 ltac:(destruct Ht; lia) (proj2 Ht)) as [[_ G]|[[G _] _]]; [exact G|]. destruct Ht. lia. }
    assert (Hsecond : forall t, GG b s2 t -> exists j, Ec A b j /\ s2 <= j /\ reach st j t).
    { intros t Ht. destruct (e_parts b s2 t Hb J1 J4 J5 K3 ltac:(destruct Ht; lia) (proj2 Ht)) as [[[G _] _]|[_ G]]; [|exact G]. destruct Ht. lia. }
    assert (Hn : forall i, i < S n0 -> bar A i = false -> own (At A i) i -> forall t, E st1 (next (X st1 i)) t -> reach st (next (Q A i)) t /\ next (Q A i) < S n0).
    { intros i Hi _ _ t Ht. destruct (c_st1 i Hi) as (_ & C2 & _). rewrite C2 in Ht. pose proof (proj1 (e_rng i Hi)) as Hx. split; [|exact Hx]. apply (c_st1 _ Hx). exact Ht. }
    split; [|split].
    - intros t Ht. split; [|intros [[_ G]|[_ G]]; exact G]. intros G. destruct (e_parts b s2 t Hb J1 J4 J5 K3 Ht G) as [[G' _]|[G' _]]; auto.
    - split.
      + exists (S b). split; [lia|]. apply (c_st1 b Hb). apply (st_step b _ _ Hb J2). constructor.
      + intros [F _]. lia.
      + intros i t [F1 F2] Ht. pose proof (e_in b i Hb F2) as Hi. apply (c_st1 i Hi) in Ht. split.
        * apply (st_range (S b) s2 i t J5 Ht F1 Hi).
        * apply (c_st1 b Hb) in F2. apply (c_st1 b Hb). eapply st_trans; eauto.
      + destruct Jn as [(jn & N1 & N2 & N3 & N4 & N5)|[N|(u & v & N1 & (N2 & N3 & N4) & (N5 & N6 & N7))]].
        * left. intros i t [F1 F2] Hp Ht Hg. pose proof (e_in b i Hb F2) as Hi. destruct (e_own i Hi Hp) as [O1 O2]. destruct (Hn i Hi O1 O2 t Ht) as [R1 R2].
          destruct (Hsecond t Hg) as (j & T1 & T2 & T3). pose proof (proj2 (e_rng b Hb) j T1) as Hj.
          assert (Hlt : t < jn) by (apply (st_range s2 jn j t); [intros p q Hp' Hq; apply (N4 p Hp'); exact Hq|exact T3|split; [exact T2|apply N2; exact T1]|exact Hj]).
          destruct (proj2 (N3 i F1) O1 O2) as [K|K].
          -- rewrite K in *. pose proof (e_right jn jn t N5 R1 ltac:(lia) R2). lia.
          -- pose proof (st_range (S b) s2 _ t J5 R1 K R2). destruct Hg. lia.
        * left. intros i t [F1 F2] Hp Ht [Hg _]. pose proof (e_in b i Hb F2) as Hi. destruct (e_own i Hi Hp) as [O1 O2]. destruct (Hn i Hi O1 O2 t Ht) as [R1 R2].
          pose proof (N i (reach_er _ _ (Hfirst i (conj F1 F2)) Hb1) O1 O2) as K. pose proof (st_range (S b) s2 _ t J5 R1 K R2). lia.
        * right. exists u, v. assert (HE : forall w, er A (S b) w -> S b <= w < S b + (s2 - S b) -> chars (Q A w) <> EMPTY -> FF b s2 w /\ isemp st1 w = false).
          { intros w W1 W2 W3. assert (HF : E st1 b w) by (apply (c_st1 b Hb); apply (st_step b _ _ Hb J2); apply er_reach; assumption).
            split; [split; [lia|exact HF]|]. unfold isemp. rewrite (proj1 (c_st1 w (e_in b w Hb HF))). apply N.eqb_neq. exact W3. }
          destruct (HE u N2 N3 N4), (HE v N5 N6 N7). auto.
    - assert (HR2 : RC A s2) by apply (K3 s2 J3). split.
      + exists s2. split; [lia|]. apply (c_st1 b Hb). apply (st_step b _ _ Hb J3). constructor.
      + intros [F _]. lia.
      + intros i t [F1 F2] Ht. pose proof (e_in b i Hb F2) as Hi. apply (c_st1 i Hi) in Ht. split.
        * apply (e_right s2 i t HR2 Ht F1 Hi).
        * apply (c_st1 b Hb) in F2. apply (c_st1 b Hb). eapply st_trans; eauto.
      + left. intros i t [F1 F2] Hp Ht [Hg _]. pose proof (e_in b i Hb F2) as Hi. destruct (e_own i Hi Hp) as [O1 O2]. destruct (Hn i Hi O1 O2 t Ht) as [R1 R2].
        pose proof (e_forward i Hi O1 O2). pose proof (e_right s2 _ t HR2 R1 ltac:(lia) R2). lia.
  Qed.

  Lemma e_sim : sim st1 sb1 lp hi (bar A) (Ec A).
  Proof.
    assert (Hn : length sb1 = S n0) by (rewrite Lb1; apply e_len).
    split; rewrite ?Hn.
    - rewrite L1. apply e_len.
    - intros b Hb Hbar. destruct (e_bar b Hb Hbar) as (K1 & K2 & _). destruct (c_st1 b Hb) as (C1 & _ & _), (c_sb1 b Hb) as (D1 & D2 & _).
      unfold isemp. rewrite C1, K1, D1, D2. unfold erase. rewrite Hbar. cbn [chars next]. split; [reflexivity|]. split; [apply N.eqb_neq; exact Hcf|]. split; [|reflexivity].
      eapply (far_at sb sb1 n0); try apply e_len; try exact Lb1; try exact Hsb1; try exact e_cases; try exact e_fin; [exact Hb|apply e_clear; exact K2|auto].
    - intros i Hi Hbar. destruct (c_st1 i Hi) as (C1 & C2 & _), (c_sb1 i Hi) as (D1 & D2 & _). rewrite C1, C2, D1, D2. unfold erase. rewrite Hbar. auto.
    - intros i t Hi. destruct (c_st1 i Hi) as (_ & _ & C3), (c_sb1 i Hi) as (_ & _ & D3). rewrite C3, D3. split.
      + intros P. destruct (st_split_path i t P Hi) as [G|(b & s & G1 & G2 & G3 & G4 & G5)]; [auto|]. right. exists b, s. split; [exact G1|]. split; [apply D3; exact G3|]. split; [exact G4|].
        apply (c_st1 s); [apply (e_rng b G2); exact G4|exact G5].
      + intros [P|(b & s & G1 & G2 & G3 & G4)]; [apply sb_in_st; assumption|]. apply D3 in G2. apply (sb_in_st i b) in G2; [|exact Hi].
        assert (Hb : b < S n0) by (apply (st_range 0 (S n0) i b); [|exact G2|lia|exact Hi]; intros u v Hu Hv; split; [lia|]; apply (e_rng u ltac:(lia)); exact Hv).
        eapply st_trans; [exact G2|]. apply (st_step b s t Hb G3). apply (c_st1 s); [apply (e_rng b Hb); exact G3|exact G4].
    - intros b s Hb Hbar Hs. destruct (e_bar b Hb Hbar) as (_ & _ & K3 & _ & s2 & K4 & _ & _ & K5 & _). specialize (K3 s Hs). pose proof (proj2 (e_rng b Hb) s Hs) as Hsn.
      split; [destruct (K5 s Hs); lia|]. split.
      + eapply (entry_at sb sb1 n0); try apply e_len; try exact Lb1; try exact Hsb1; try exact e_cases; try exact e_fin; [exact Hsn|apply e_clear; exact K3].
      + eapply (no_loop_at sb sb1 n0); try apply e_len; try exact Lb1; try exact Hsb1; try exact e_cases; try exact e_fin. apply e_clear. exact K3.
    - intros b Hb Hbar. destruct (e_first b Hb Hbar) as (s2 & H1 & H2 & H3). exists (FF b s2), (GG b s2). split; [exact H1|]. split; [|split; assumption].
      intros t [F _] [G _]. lia.
  Qed.
End erased.

Lemma class_fin l n0 cf : length l = n0 -> At (l ++ [(false, new_transition cf n0)]) n0 = (false, new_transition cf n0).
Proof. intros <-. unfold At. rewrite app_nth2, Nat.sub_diag by lia. reflexivity. Qed.

Lemma branching_safe_lemma ovf a st : branching a = true -> well_formed a = true -> width a < MAX_SET_SIZE -> build_all ovf a = Ok st -> optimize_safe st = true.
Proof.
  intros Hf Hwf Hw Hb. destruct (build_nfa ovf a Hwf Hw) as (st' & Hb' & Hn & _ & _). assert (st' = st) by congruence. subst st'. clear Hb'.
  unfold build_all in Hb. destruct (build_lay ovf a Hf [] ltac:(cbn [length plus]; rewrite max_eq; exact Hw)) as (l & E0 & G0). cbn [length app plus] in *.
  rewrite E0 in Hb. cbn [bind] in Hb. injection Hb as <-. rewrite states_of_length in Hn |- *. pose proof (lay_length a Hf _ _ _ G0) as Hl. rewrite Hl in Hn |- *.
  set (n0 := width a) in *. set (cf := charset_of WORD_END) in *. set (A := l ++ [(false, new_transition cf n0)]).
  assert (HstA : states_of l ++ [new_transition cf n0] = states_of A) by (unfold A; rewrite states_of_app; reflexivity). rewrite HstA in *.
  assert (HA : length A = S n0) by (unfold A; rewrite app_length; cbn [length]; lia).
  assert (Hfin : At A n0 = (false, new_transition cf n0)) by (apply class_fin; exact Hl).
  assert (Hocc : occ A 0 l) by (intros k y Hy; unfold A; cbn [plus]; rewrite nth_error_app1; [exact Hy|eapply nth_lt; exact Hy]).
  assert (Hfact : forall i, i < n0 -> fact A n0 i).
  { intros i Hi. change i with (0 + i). eapply (lay_fact A n0 a Hf 0 n0 l G0 Hocc); [fold n0; lia| | |left; reflexivity|exact Hi].
    - intros k j Hk. lia.
    - fold n0. cbn [plus]. intros k j Hk Hj. destruct (Nat.eq_dec k n0) as [->|Hne].
      + unfold Ec, Q in Hj. rewrite Hfin in Hj. cbn [snd new_transition eps] in Hj. rewrite mem_0 in Hj. discriminate.
      + unfold Ec, Q, At in Hj. rewrite nth_overflow in Hj by lia. cbn [snd] in Hj. change (eps state_new) with 0%N in Hj. rewrite mem_0 in Hj. discriminate. }
  assert (Hcap : forall s, nfa_ok max_blocks s -> in_cap max_blocks s).
  { intros s Hs. split; [apply Hs|]. intros i x j Hx Hj. destruct (o_rng _ _ Hs _ _ Hx) as [_ H2]. specialize (H2 _ Hj). pose proof (o_cap _ _ Hs). lia. }
  assert (Hcf : cf <> EMPTY) by (vm_compute; discriminate).
  pose proof (e_nfa A n0 max_blocks cf Hcf HA Hn Hfact Hfin) as Hnb.
  destruct (closure_ok _ _ (Hcap _ Hn)) as (st1 & E1 & L1 & H1). destruct (closure_ok _ _ (Hcap _ Hnb)) as (sb1 & Eb1 & Lb1 & Hb1).
  unfold optimize_safe. eapply (optimize_tracked _ _ _ st1); [exact Hn|exact E1|].
  exists sb1, (lp A cf), (hi sb1), (bar A), (Ec A). split; [|split].
  - destruct (closure_nfa max_blocks _ Hnb) as (sb' & F1 & F2 & _). assert (sb' = sb1) by congruence. subst sb'. exact F2.
  - eapply (e_ia A n0 max_blocks cf); eauto.
  - eapply (e_sim A n0 max_blocks cf); eauto.
Qed.

(** ** Such patterns compile right *)
Lemma ends_last a : ends_in_class a = true -> last_only a = true /\ 0 < width a.
Proof.
  induction a as [cs|l IH|l IH|l IH|t mn mx IH|k b] using ast_ind'; intros H; try discriminate H; [split; [reflexivity|cbn; lia]|].
  cbn [ends_in_class last_only] in *.
  enough (G : forall acc, (fix go (l : list ast) (acc : bool) : bool := match l with [] => acc | t :: l' => go l' (if width t =? 0 then acc else last_only t) end) l acc = true /\ 0 < width (Sequence l)) by (exact (G true)).
  induction l as [|t l IHl]; [discriminate H|]. intros acc. rewrite sum_cons. destruct l as [|t2 l].
  - destruct (Forall_inv IH H) as [H1 H2]. destruct (Nat.eqb_spec (width t) 0); [lia|]. split; [exact H1|lia].
  - destruct (IHl (Forall_inv_tail IH) H (if width t =? 0 then acc else last_only t)) as [H1 H2]. split; [exact H1|lia].
Qed.
Lemma branching_wf a : branching a = true -> well_formed a = true.
Proof.
  induction a as [cs|l IH|l IH|l IH|t mn mx IH|k b] using ast_ind'; cbn [branching well_formed]; intros H; try discriminate H; [reflexivity| | |].
  - apply andb_true_iff in H. destruct H as [H E]. apply andb_true_iff in H. destruct H as [_ B]. rewrite forallb_forall in *. rewrite Forall_forall in IH.
    apply andb_true_iff. split; [apply andb_true_iff; split|]; [apply forallb_forall; intros t Ht; apply IH; auto|apply forallb_forall; intros t Ht; apply Nat.ltb_lt, ends_last, E; exact Ht|].
    clear - E. induction l as [|t l IHl]; [reflexivity|]. cbn [init_all]. destruct l as [|t2 l]; [reflexivity|]. apply andb_true_iff. split; [apply ends_last, E; left; reflexivity|].
    apply IHl. intros x Hx. apply E. right. exact Hx.
  - rewrite forallb_forall in *. rewrite Forall_forall in IH. intros t Ht. apply IH; auto.
  - apply andb_true_iff in H. destruct H as [H1 H2]. apply orb_true_iff in H2. destruct H2 as [H2|H2].
    + rewrite (one_class_wf _ H2), H1. reflexivity.
    + apply andb_true_iff in H2. rewrite (IH (proj1 H2)), H1. reflexivity.
Qed.
Lemma branching_safe ovf a st : branching a = true -> width a < MAX_SET_SIZE -> build_all ovf a = Ok st -> optimize_safe st = true.
Proof. intros Hb. apply branching_safe_lemma; [exact Hb|apply branching_wf; exact Hb]. Qed.
Lemma flat_branching a : flat a = true -> branching a = true.
Proof.
  induction a as [cs|l IH|l IH|l IH|t mn mx IH|k b] using ast_ind'; cbn [branching flat]; intros H; try discriminate H; [reflexivity| |].
  - rewrite forallb_forall in *. rewrite Forall_forall in IH. intros t Ht. apply IH; auto.
  - apply andb_true_iff in H. destruct H as [H1 H2]. rewrite H1, H2. reflexivity.
Qed.
