(** Pruning (expression.rs:338-406) keeps [sim]: the automaton with alternatives and the one without
    them change in the same way. *)
From Verif Require Export AltSim.

Lemma ia_self st L H i : ia st L H -> i < length st -> (forall t, E st i t -> t = i) -> H i = i /\ L i = false.
Proof.
  intros Hia Hi Hall. pose proof (ia_hi _ _ _ Hia i Hi) as Hh.
  assert (H i = i) by (apply Hall, (ia_eps _ _ _ Hia i Hi); lia). split; [assumption|].
  destruct (L i) eqn:Li; [|reflexivity]. destruct (ia_lp _ _ _ Hia i Hi Li) as (_ & _ & _ & _ & G). lia.
Qed.
Lemma ia_self' st L H i t : ia st L H -> i < length st -> H i = i -> L i = false -> E st i t -> t = i.
Proof. intros Hia Hi Hh Hl He. apply (ia_eps _ _ _ Hia i Hi) in He. rewrite Hl in He. cbn [b2n] in He. lia. Qed.

Section prune.
  Variables (st sb : list state) (L : nat -> bool) (H : nat -> nat) (B : nat -> bool) (SS : nat -> nat -> Prop) (nblk : nat).
  Hypothesis Hia : ia sb L H.
  Hypothesis Hsim : sim st sb L H B SS.
  Hypothesis Hcap : length sb <= 32 * nblk.
  Let n := length sb.
  Variable p : prune_state.
  Hypothesis Hp : inv sb L H n p.
  Let smap := state_map p.
  Let slots := somes (state_map_from p).
  Let M := IntervalProofs.M n L (isemp sb) H.
  Variables st' sb' : list state.
  Let follows (x : list state) (y : list state) := Forall2 (fun r y => exists x0, nth_error x r = Some x0 /\
     chars y = chars x0 /\ nth_error smap (next x0) = Some (next y) /\
     forall t, mem (eps y) t = true <-> exists u, mem (eps x0) u = true /\ nth_error smap u = Some t) slots y.
  Hypothesis Rst : follows st st'.
  Hypothesis Rsb : follows sb sb'.
  Let L' := PruneProofs.L' sb L H.
  Let H' := PruneProofs.H' sb L H.
  Let Hia' : ia sb' L' H' := prune_ia sb L H nblk Hia Hcap p Hp sb' Rsb.

  Definition pB (m : nat) : bool := match nth_error slots m with Some z => B z | None => false end.
  Definition pS (m s' : nat) : Prop := exists z s, nth_error slots m = Some z /\ SS z s /\ M s = s'.

  Lemma p_len : length st = n.
  Proof. apply (s_len _ _ _ _ _ _ Hsim). Qed.
  Lemma p_len' : length st' = length slots /\ length sb' = length slots.
  Proof. split; symmetry; eapply Forall2_len; eassumption. Qed.

  Lemma follows_E x x' m z : follows x x' -> nth_error slots m = Some z ->
    isemp x' m = isemp x z /\ chars (X x' m) = chars (X x z) /\ next (X x' m) = M (next (X x z)) /\ next (X x z) < n /\
    forall j, E x' m j <-> exists u, E x z u /\ u < n /\ M u = j.
  Proof.
    intros HR Hm. destruct (slot_rel x smap slots x' HR m z Hm) as (x0 & y & Hx & Hy & Hc & Hn & He).
    unfold isemp, E. rewrite (X_of _ _ _ Hx), (X_of _ _ _ Hy), Hc. destruct (smap_inv sb L H p Hp _ _ Hn) as [N1 N2].
    repeat split; auto.
    - intros Hj. apply He in Hj. destruct Hj as (u & U1 & U2). destruct (smap_inv sb L H p Hp _ _ U2) as [U3 U4]. exists u. auto.
    - intros (u & U1 & U2 & U3). apply He. exists u. split; [exact U1|]. unfold smap. rewrite (smap_nth sb L H nblk Hia Hcap p Hp u U2). f_equal. exact U3.
  Qed.
  Definition f_st m z := follows_E st st' m z Rst.
  Definition f_sb m z := follows_E sb sb' m z Rsb.

  Lemma slot_at u : u < n -> exists z, nth_error slots (M u) = Some z /\ z < n /\ M z = M u /\ E sb u z /\ E st u z /\
    forall t, E st u t -> E st z t \/ M t = M u.
  Proof.
    intros Hu. pose proof (merge_ok_ia sb L H nblk Hia Hcap p Hp) as Hm. pose proof (sim_merge st sb L H B SS Hia Hsim _ _ Hm) as Hm'.
    fold smap slots in Hm, Hm'.
    assert (Hu' : u < length st) by (rewrite p_len; exact Hu).
    destruct (mg_map st smap slots Hm' u _ (X_nth st u Hu')) as (m & r & y & E1 & E2 & E3 & E4).
    destruct (mg_map sb smap slots Hm u _ (X_nth sb u Hu)) as (m0 & r0 & y0 & F1 & F2 & F3 & F4).
    assert (m0 = m) by congruence. subst m0. assert (r0 = r) by congruence. subst r0.
    destruct (smap_inv sb L H p Hp _ _ E1) as [_ Em]. fold n M in Em. rewrite <- Em. exists r. split; [exact E2|].
    split; [eapply nth_lt; exact F3|]. split.
    { destruct (content sb L H nblk Hia Hcap p Hp m (nth_lt _ _ _ E2)) as (z & Z0 & _ & _ & Z3 & _).
      fold slots in Z0. assert (z = r) by congruence. subst z. exact Z3. }
    split; [destruct F4 as [->|(_ & F4 & _)]; [apply (ia_refl _ _ _ _ Hia Hu)|exact F4]|].
    split; [destruct E4 as [->|(_ & E4 & _)]; [apply (sim_refl _ _ _ _ _ _ Hia Hsim u Hu)|exact E4]|].
    intros t Ht. destruct E4 as [->|(_ & _ & E4)]; [left; exact Ht|]. destruct (E4 t Ht) as [G|G].
    - left. unfold E. rewrite (X_of _ _ _ E3). exact G.
    - right. apply (smap_inv sb L H p Hp) in G. symmetry. apply G.
  Qed.
  Lemma slot_content m : m < length slots -> exists z, nth_error slots m = Some z /\ z < n /\ M z = m.
  Proof.
    intros Hm. destruct (content sb L H nblk Hia Hcap p Hp m Hm) as (z & Z0 & Z1 & _ & Z3 & _). exists z. split; [exact Z0|]. split; [apply Z1|exact Z3].
  Qed.
  Lemma slot_B b : b < n -> B b = true -> nth_error slots (M b) = Some b.
  Proof.
    intros Hb HB. destruct (s_bar _ _ _ _ _ _ Hsim b Hb HB) as (_ & Q & _).
    destruct (slot_of sb L H nblk Hia Hcap p Hp b Hb) as (_ & _ & _ & z & Z0 & _ & _ & Z). rewrite Z in Z0; [exact Z0|].
    unfold IntervalProofs.tgt. rewrite Q, andb_false_r. reflexivity.
  Qed.
  Lemma slot_chr b : b < n -> isemp sb b = false -> nth_error slots (M b) = Some b.
  Proof.
    intros Hb Q. destruct (slot_of sb L H nblk Hia Hcap p Hp b Hb) as (_ & _ & _ & z & Z0 & _ & _ & Z). rewrite Z in Z0; [exact Z0|].
    unfold IntervalProofs.tgt. rewrite Q, andb_false_r. reflexivity.
  Qed.
  Lemma chr_sb b : b < n -> isemp st b = false -> isemp sb b = false.
  Proof.
    intros Hb Q. assert (HB : B b = false) by (destruct (B b) eqn:HB; [|reflexivity]; destruct (s_bar _ _ _ _ _ _ Hsim b Hb HB) as (F & _); congruence).
    unfold isemp in *. rewrite <- (proj1 (s_chr _ _ _ _ _ _ Hsim b Hb HB)). exact Q.
  Qed.
  Lemma pE_refl u : u < n -> E st' (M u) (M u).
  Proof.
    intros Hu. destruct (slot_at u Hu) as (z & Z0 & Z1 & Z2 & _). apply (f_st _ _ Z0). exists z. split; [apply (sim_refl _ _ _ _ _ _ Hia Hsim z Z1)|auto].
  Qed.
  Lemma pE_map u t : u < n -> E st u t -> E st' (M u) (M t).
  Proof.
    intros Hu He. pose proof (sim_bound _ _ _ _ _ _ Hia Hsim u t Hu He) as Ht. destruct (slot_at u Hu) as (z & Z0 & Z1 & Z2 & _ & _ & Z3).
    destruct (Z3 t He) as [G|G]; [|rewrite G; apply pE_refl; exact Hu]. apply (f_st _ _ Z0). exists t. auto.
  Qed.
  Lemma pE_back u j : u < n -> E st' (M u) j -> exists t, t < n /\ E st u t /\ M t = j.
  Proof.
    intros Hu He. destruct (slot_at u Hu) as (z & Z0 & Z1 & Z2 & _ & Z4 & Z3). apply (f_st _ _ Z0) in He. destruct He as (t & T1 & T2 & T3).
    exists t. split; [exact T2|]. split; [|exact T3]. apply (sim_trans _ _ _ _ _ _ Hia Hsim u z t Hu Z4 T1).
  Qed.

  Lemma p_proper m z : nth_error slots m = Some z -> z < n -> M z = m -> proper st' m -> proper st z.
  Proof.
    intros Hz Hzn Hm Hpr. destruct (f_st m z Hz) as (S1 & S2 & S3 & S4 & S5). destruct (f_sb m z Hz) as (B1 & B2 & B3 & B4 & B5).
    destruct Hpr as [Hpr|Hpr]; [left; congruence|].
    destruct (B z) eqn:HB.
    - exfalso. destruct (s_split _ _ _ _ _ _ Hsim z Hzn HB) as (F & G & C & D & HF & _). destruct (h_ne _ _ _ _ HF) as [f Hf].
      assert (Hne : f <> z) by (intros ->; exact (h_b _ _ _ _ HF Hf)). assert (Hzf : E st z f) by (apply C; auto).
      pose proof (sim_bound _ _ _ _ _ _ Hia Hsim z f Hzn Hzf) as Hfn.
      assert (Ef : M f = m) by (apply Hpr, S5; exists f; auto).
      destruct (slot_at f Hfn) as (z' & Z0 & Z1 & Z2 & _ & Z4 & _). rewrite Ef in Z0. assert (z' = z) by congruence. subst z'.
      exact (h_b _ _ _ _ HF (h_cl _ _ _ _ HF f z Hf Z4)).
    - assert (Hm' : m < length slots) by (eapply nth_lt; exact Hz).
      destruct (ia_self sb' L' H' m Hia') as [Hh Hl]; [rewrite (proj2 p_len'); exact Hm'| |].
      { intros t Ht. apply Hpr. apply S5. apply B5 in Ht. destruct Ht as (u & U1 & U2 & U3). exists u. split; [|auto].
        apply (sim_near_in _ _ _ _ _ _ Hsim z u Hzn U1). }
      destruct (chr_back sb L H nblk Hia Hcap p Hp sb' Rsb m z Hm' Hz (or_intror (conj Hh Hl))) as [[G|[G1 G2]] _].
      + left. unfold isemp in *. rewrite (proj1 (s_chr _ _ _ _ _ _ Hsim z Hzn HB)). exact G.
      + right. intros t Ht. apply (s_eps _ _ _ _ _ _ Hsim z t Hzn) in Ht. destruct Ht as [Ht|(b & s & Hb & Hzb & _)].
        * apply (ia_self' _ _ _ _ _ Hia Hzn G1 G2 Ht).
        * rewrite (ia_self' _ _ _ _ _ Hia Hzn G1 G2 Hzb) in Hb. congruence.
  Qed.

  Lemma p_half b (F G : nat -> Prop) : b < n -> B b = true -> (forall t, F t -> t < n) -> (forall t, G t -> t < n) ->
    (forall i t, G i -> E st i t -> G t) ->
    half st b F G -> half st' (M b) (fun j => exists u, F u /\ M u = j) (fun j => exists u, G u /\ M u = j).
  Proof.
    intros Hb HB Fn Gn Gcl [F1 F2 F3 F4]. split.
    - destruct F1 as [t Ht]. eauto.
    - intros (u & U1 & U2). destruct (slot_at u (Fn u U1)) as (z & Z0 & _ & _ & _ & Z4 & _). rewrite U2, (slot_B b Hb HB) in Z0. injection Z0 as <-.
      exact (F2 (F3 _ _ U1 Z4)).
    - intros i t (u & U1 & <-) He. destruct (pE_back u t (Fn u U1) He) as (t0 & T1 & T2 & T3). exists t0. split; [exact (F3 _ _ U1 T2)|exact T3].
    - destruct F4 as [F4|(i & j & I1 & J1 & Hij & I2 & J2)].
      2:{ right. pose proof (slot_chr i (Fn i I1) (chr_sb i (Fn i I1) I2)) as Si. pose proof (slot_chr j (Fn j J1) (chr_sb j (Fn j J1) J2)) as Sj.
        exists (M i), (M j). split; [eauto|]. split; [eauto|]. split; [intros Heq; rewrite Heq in Si; congruence|].
        split; [rewrite (proj1 (f_st _ _ Si)); exact I2|rewrite (proj1 (f_st _ _ Sj)); exact J2]. }
      left. intros i t (u & U1 & <-) Hpr He (v & V1 & V2). pose proof (Fn u U1) as Hu. destruct (slot_at u Hu) as (z & Z0 & Z1 & Z2 & _ & Z4 & _).
      pose proof (F3 _ _ U1 Z4) as Fz. destruct (f_st _ _ Z0) as (_ & _ & S3 & S4 & _). rewrite S3 in He.
      destruct (pE_back _ t S4 He) as (w & W1 & W2 & W3). pose proof (Gn v V1) as Hv.
      destruct (slot_at v Hv) as (y & Y0 & Y1 & Y2 & _ & Y4 & _). destruct (slot_at w W1) as (y' & Q0 & Q1 & Q2 & _ & Q4 & _).
      rewrite W3 in Q0. rewrite V2 in Y0. assert (y' = y) by congruence. subst y'.
      apply (F4 z y Fz (p_proper _ _ Z0 Z1 Z2 Hpr)); [|exact (Gcl _ _ V1 Y4)].
      exact (sim_trans _ _ _ _ _ _ Hia Hsim _ _ _ S4 W2 Q4).
  Qed.

  Lemma prune_sim : sim st' sb' L' H' pB pS.
  Proof.
    destruct p_len' as [Ls Lb]. split; rewrite ?Lb.
    - lia.
    - intros m Hm HB. destruct (slot_content m Hm) as (z & Z0 & Z1 & Z2). unfold pB in HB. rewrite Z0 in HB.
      destruct (s_bar _ _ _ _ _ _ Hsim z Z1 HB) as (Q1 & Q2 & Q3 & Q4).
      destruct (f_st m z Z0) as (S1 & _). destruct (f_sb m z Z0) as (B1 & _ & B3 & _).
      split; [congruence|]. split; [congruence|]. rewrite Q4 in B3. split; [|congruence].
      rewrite <- Lb, <- Z2. apply (far_next_M sb L H nblk Hia Hcap p Hp sb' Rsb z z Z1); [| |exact Q3].
      + destruct (L z) eqn:Lz; [|reflexivity]. destruct (ia_lp _ _ _ Hia z Z1 Lz) as (_ & _ & _ & G & _). congruence.
      + intros _ (s & Es & A & _). injection Es as <-. pose proof (sA_emp _ _ _ _ A). congruence.
    - intros m Hm HB. destruct (slot_content m Hm) as (z & Z0 & Z1 & Z2). unfold pB in HB. rewrite Z0 in HB.
      destruct (s_chr _ _ _ _ _ _ Hsim z Z1 HB) as [C1 C2].
      destruct (f_st m z Z0) as (_ & S2 & S3 & _). destruct (f_sb m z Z0) as (_ & B2 & B3 & _). split; congruence.
    - intros m j Hm. destruct (slot_content m Hm) as (z & Z0 & Z1 & Z2).
      destruct (f_st m z Z0) as (_ & _ & _ & _ & ES). destruct (f_sb m z Z0) as (_ & _ & _ & _ & EB). split.
      + intros He. apply ES in He. destruct He as (u & U1 & U2 & U3). apply (s_eps _ _ _ _ _ _ Hsim z u Z1) in U1.
        destruct U1 as [U1|(b & s & Hb & Hzb & Hs & U1)]; [left; apply EB; eauto|right].
        destruct (sim_near _ _ _ _ _ _ Hia Hsim z b Z1 Hzb Hb) as (_ & Hbn & _).
        destruct (s_start _ _ _ _ _ _ Hsim b s Hbn Hb Hs) as (Hsn & _).
        exists (M b), (M s). split; [unfold pB; rewrite (slot_B b Hbn Hb); exact Hb|]. split; [apply EB; eauto|].
        split; [exists b, s; split; [apply slot_B; assumption|auto]|]. rewrite <- U3. apply pE_map; [apply Hsn|exact U1].
      + intros [He|(b' & s' & HB & He & (b & s & Hb & Hs & <-) & He2)].
        * apply EB in He. destruct He as (u & U1 & U2 & U3). apply ES. exists u. split; [|auto].
          apply (sim_near_in _ _ _ _ _ _ Hsim z u Z1 U1).
        * unfold pB in HB. rewrite Hb in HB. assert (Hbs : b' < length slots) by (eapply nth_lt; exact Hb).
          destruct (slot_content b' Hbs) as (z' & Y0 & Hbn & Y2). assert (z' = b) by congruence. subst z'.
          destruct (s_start _ _ _ _ _ _ Hsim b s Hbn HB Hs) as (Hsn & _).
          apply EB in He. destruct He as (u0 & U1 & U2 & U3). destruct (pE_back s j (proj2 Hsn) He2) as (t & T1 & T2 & T3).
          destruct (slot_at u0 U2) as (z' & Q0 & _ & _ & Q3 & _). rewrite U3 in Q0. assert (z' = b) by congruence. subst z'.
          apply ES. exists t. split; [|auto]. apply (s_eps _ _ _ _ _ _ Hsim z t Z1). right. exists b, s. repeat split; auto.
          exact (ia_trans _ _ _ _ _ _ Hia Z1 U2 U1 Q3).
    - intros b' s' Hm HB (b & s & Hb & Hs & <-). unfold pB in HB. rewrite Hb in HB.
      destruct (slot_content b' Hm) as (z' & Y0 & Hbn & Y2). assert (z' = b) by congruence. subst z'.
      destruct (s_start _ _ _ _ _ _ Hsim b s Hbn HB Hs) as (Hsn & Hen & Ls0). fold n in Hsn.
      pose proof (entry_root sb L H nblk Hia Hcap s (proj2 Hsn) Hen) as Hd.
      split; [split|split].
      + rewrite <- Y2. apply (M_root_lt n L (isemp sb) H (ia_hi _ _ _ Hia) (ia_tr _ _ _ Hia) (ia_lp _ _ _ Hia)); [apply Hsn|exact Hd|apply Hsn].
      + apply (M_slots sb L H nblk Hia Hcap p Hp s (proj2 Hsn)).
      + apply (entry_M sb L H nblk Hia Hcap p Hp s (proj2 Hsn) Hen).
      + unfold L', PruneProofs.L'. change (L (rt sb L H (M s)) = false). unfold M, n. rewrite (rt_M sb L H nblk Hia Hcap p Hp s (proj2 Hsn) Hd). exact Ls0.
    - intros m Hm HB. unfold pB in HB. destruct (slot_content m Hm) as (b & Z0 & Z1 & Z2). rewrite Z0 in HB.
      destruct (s_split _ _ _ _ _ _ Hsim b Z1 HB) as (F & G & C & D & HF & HG).
      assert (Fn : forall t, F t -> t < n).
      { intros t Ht. apply (sim_bound _ _ _ _ _ _ Hia Hsim b t Z1). apply C; [|auto]. intros ->. exact (h_b _ _ _ _ HF Ht). }
      assert (Gn : forall t, G t -> t < n).
      { intros t Ht. apply (sim_bound _ _ _ _ _ _ Hia Hsim b t Z1). apply C; [|auto]. intros ->. exact (h_b _ _ _ _ HG Ht). }
      exists (fun j => exists u, F u /\ M u = j), (fun j => exists u, G u /\ M u = j). rewrite <- Z2.
      split; [|split; [|split]].
      + intros j Hj. split.
        * intros He. destruct (pE_back b j Z1 He) as (t & T1 & T2 & T3). assert (t <> b) by congruence. apply C in T2; [|assumption].
          destruct T2; [left|right]; eauto.
        * intros [(u & U1 & <-)|(u & U1 & <-)]; apply pE_map; auto; apply C; auto; intros ->; congruence.
      + intros j (u & U1 & U2) (v & V1 & V2). destruct (slot_at u (Fn u U1)) as (z & Y0 & _ & _ & _ & Y4 & _).
        destruct (slot_at v (Gn v V1)) as (z' & Y0' & _ & _ & _ & Y4' & _). rewrite U2 in Y0. rewrite V2 in Y0'. assert (z' = z) by congruence. subst z'.
        exact (D z (h_cl _ _ _ _ HF _ _ U1 Y4) (h_cl _ _ _ _ HG _ _ V1 Y4')).
      + apply p_half; auto. exact (h_cl _ _ _ _ HG).
      + apply p_half; auto. exact (h_cl _ _ _ _ HF).
  Qed.
End prune.
