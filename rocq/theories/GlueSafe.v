(** Cutting a pattern at a class: the whole optimisation (expression.rs:418-435). *)
From Verif Require Export GluePrune.

Definition round (st st3 : list state) : Prop := exists st1 st2, closes st st1 /\ prunes st1 st2 /\ steps 0 st2 st3.
Inductive tame : list state -> Prop := tame_intro st st3 : round st st3 -> (length st3 <> length st -> tame st3) -> tame st.

Lemma closes_fine st st1 : fine st -> closes st st1 -> fine st1.
Proof. intros H C. destruct (closes_ok _ st H) as (s & _ & C2 & H2). rewrite (closes_det _ _ _ C C2). eapply ok_fine. exact H2. Qed.
Lemma prunes_fine st st' : fine st -> prunes st st' -> fine st' /\ length st' <= length st /\ (length st' = length st -> st' = st).
Proof.
  intros H P. destruct (prunes_safe _ st st' H P) as (H1 & H2 & H3). split; [eapply ok_fine; exact H3|].
  destruct (prune_ok _ st H H1) as (s & E1 & _ & Q1 & Q2 & _). rewrite E1 in H2. injection H2 as <-. auto.
Qed.
Lemma closes_self st st1 : fine st -> closes st st1 -> closes st1 st1.
Proof.
  intros H C. pose proof (cl_len _ _ C) as Hl. split; [reflexivity|auto|]. intros i t Hi. split; [intros He; eapply re_step; [exact He|constructor]|].
  intros P. induction P as [i|i j t He _ IH].
  - apply (cl_E _ _ C); [lia|constructor].
  - pose proof (closes_fine _ _ H C) as H1. specialize (IH (ok_E _ _ _ _ H1 Hi He)). apply (cl_E _ _ C) in He; [|lia].
    assert (Hj : j < length st) by (rewrite <- Hl; eapply E_in; exact IH). apply (cl_E _ _ C) in IH; [|exact Hj]. apply (cl_E _ _ C); [lia|].
    clear - He IH. induction He as [i|i k j He _ IHe]; [exact IH|]. eapply re_step; eauto.
Qed.
Lemma round_fine st st3 : fine st -> round st st3 -> fine st3 /\ length st3 <= length st /\ (length st3 = length st -> round st3 st3).
Proof.
  intros H (st1 & st2 & C & P & SS). pose proof (closes_fine _ _ H C) as H1. destruct (prunes_fine _ _ H1 P) as (H2 & Q1 & Q2).
  destruct (steps_len _ _ _ SS) as [Q3 Q4]. pose proof (cl_len _ _ C) as Hl. split; [eapply steps_fine; eauto|]. split; [lia|].
  intros Heq. assert (st2 = st1) by (apply Q2; lia). assert (st3 = st2) by (apply Q4; lia). subst st3 st2. exists st1, st1. split; [exact (closes_self _ _ H C)|]. split; assumption.
Qed.
Lemma tame_next st st3 : fine st -> tame st -> round st st3 -> tame st3.
Proof.
  intros H T Hr. destruct T as [st st' Hr' Hn].
  assert (st' = st3).
  { destruct Hr as (a1 & a2 & A1 & A2 & A3), Hr' as (b1 & b2 & B1 & B2 & B3). pose proof (closes_det _ _ _ A1 B1). subst b1. pose proof (prunes_det _ _ _ A2 B2). subst b2.
    assert (H2 : fine a2) by (eapply prunes_fine; [eapply closes_fine; eauto|exact A2]).
    destruct (steps_loop _ _ _ _ A3 H2) as [_ E1]. destruct (steps_loop _ _ _ _ B3 H2) as [_ E2].
    destruct (E1 (length a2) ltac:(lia)) as [_ F1]. destruct (E2 (length a2) ltac:(lia)) as [_ F2]. congruence. }
  subst st'. destruct (Nat.eq_dec (length st3) (length st)) as [Heq|Hne]; [|auto].
  destruct (round_fine _ _ H Hr) as (_ & _ & Hs). specialize (Hs Heq). econstructor; [exact Hs|]. intros Hc. contradiction.
Qed.
Lemma safe_tame fuel : forall nb st, nfa_ok nb st -> length st < fuel -> optimize_loop_safe fuel nb st = true -> tame st.
Proof.
  induction fuel as [|fuel IH]; intros nb st H Hf Hs; [lia|]. cbn [optimize_loop_safe] in Hs.
  destruct (closes_ok nb st H) as (st1 & E1 & C1 & H1). rewrite E1 in Hs. apply andb_true_iff in Hs. destruct Hs as [Hs1 Hs].
  destruct (prunes_ok nb st1 H1 Hs1) as (st2 & E2 & P2 & H2). rewrite E2 in Hs. apply andb_true_iff in Hs. destruct Hs as [Hs2 Hs].
  destruct (loop_steps _ (length st2) 0 st2 H2 ltac:(lia) Hs2) as (st3 & E3 & S3). unfold collapse_epsilon_char_pairs in Hs. rewrite E3 in Hs.
  assert (Hr : round st st3) by (exists st1, st2; auto). econstructor; [exact Hr|]. intros Hne.
  destruct (Nat.eqb_spec (length st3) (length st)); [contradiction|]. destruct (round_fine _ _ (ok_fine _ _ H) Hr) as (H3 & Q & _).
  unfold shrink_bitsets in Hs. replace (forallb _ st3) with true in Hs.
  - apply (IH (blocks_for (length st3)) st3); [apply fine_ok; [exact H3|apply blocks_for_cap]|lia|exact Hs].
  - symmetry. apply forallb_forall. intros x Hx. apply In_nth_error in Hx. destruct Hx as [k Hk]. apply forallb_forall. intros j Hj.
    apply in_ones in Hj. apply Nat.ltb_lt. exact (proj2 (o_rng _ _ H3 _ _ Hk) j Hj).
Qed.
Lemma tame_safe fuel : forall nb st, nfa_ok nb st -> tame st -> optimize_loop_safe fuel nb st = true.
Proof.
  induction fuel as [|fuel IH]; intros nb st H T; [reflexivity|]. cbn [optimize_loop_safe]. destruct T as [st st3 Hr Hn].
  destruct (round_fine _ _ (ok_fine _ _ H) Hr) as (H3 & _). destruct Hr as (st1 & st2 & C1 & P2 & S3).
  destruct (closes_ok nb st H) as (s & E1 & C1' & H1). rewrite (closes_det _ _ _ C1' C1) in *. rewrite E1.
  destruct (prunes_safe nb st1 st2 H1 P2) as (Hs1 & E2 & H2). rewrite Hs1, E2. cbn [andb].
  destruct (steps_loop _ _ _ _ S3 H2) as [_ F]. destruct (F (length st2) ltac:(lia)) as [Hs2 E3]. unfold collapse_epsilon_char_pairs. rewrite Hs2, E3. cbn [andb].
  destruct (Nat.eqb_spec (length st3) (length st)) as [|Hne]; [reflexivity|].
  unfold shrink_bitsets. destruct (forallb _ st3); [|reflexivity].
  apply IH; [apply fine_ok; [exact H3|apply blocks_for_cap]|auto].
Qed.
Lemma round_glue d L R G L' R' : glued d L R G -> fine L -> fine R -> lok d L -> rok R -> round L L' -> round R R' ->
  exists d' G', round G G' /\ glued d' L' R' G' /\ lok d' L' /\ rok R'.
Proof.
  intros HG HL HR Hl Hr (L1 & L2 & CL & PL & SL) (R1 & R2 & CR & PR & SR).
  pose proof (glued_fine _ _ _ _ HG HL HR Hl) as HF. destruct (closes_ok _ G HF) as (G1 & _ & CG & _).
  pose proof (glued_closes _ _ _ _ _ _ _ _ _ HG HR Hl Hr HL CL CR CG) as HG1.
  pose proof (closes_fine _ _ HL CL) as HL1. pose proof (closes_fine _ _ HR CR) as HR1.
  pose proof (lok_closes _ _ _ _ (gl_L _ _ _ _ HG) HL Hl CL) as Hl1. pose proof (rok_closes _ _ (gl_R _ _ _ _ HG) Hr CR) as Hr1.
  destruct (prune_glue d L1 R1 G1 L2 R2 HG1 HL1 HR1 Hl1 Hr1) as (d2 & G2 & PG & HG2 & Hl2 & Hr2); [| |exact PL|exact PR|].
  - intros i Hi. rewrite (cl_len _ _ CL) in Hi. apply (cl_E _ _ CL); [exact Hi|constructor].
  - intros i Hi. rewrite (cl_len _ _ CR) in Hi. apply (cl_E _ _ CR); [exact Hi|constructor].
  - destruct (prunes_fine _ _ HL1 PL) as (HL2 & _). destruct (prunes_fine _ _ HR1 PR) as (HR2 & _).
    destruct (steps_glue d2 L2 R2 G2 L' R' HG2 HL2 HR2 Hl2 Hr2 SL SR) as (d3 & G3 & SG & HG3 & Hl3 & Hr3).
    exists d3, G3. split; [exists G1, G2; auto|auto].
Qed.
Lemma glue_tame N : forall d L R G, length L + length R <= N -> glued d L R G -> fine L -> fine R -> lok d L -> rok R -> tame L -> tame R -> tame G.
Proof.
  induction N as [|N IH]; intros d L R G HN HG HL HR Hl Hr TL TR; pose proof (gl_R _ _ _ _ HG) as LR; pose proof (gl_L _ _ _ _ HG) as LL; pose proof (gl_G _ _ _ _ HG) as LG; [lia|].
  assert (exists L', round L L') as (L' & RL) by (destruct TL; eauto). assert (exists R', round R R') as (R' & RR) by (destruct TR; eauto).
  destruct (round_glue d L R G L' R' HG HL HR Hl Hr RL RR) as (d' & G' & RG & HG' & Hl' & Hr').
  pose proof (gl_R _ _ _ _ HG') as LR'; pose proof (gl_L _ _ _ _ HG') as LL'; pose proof (gl_G _ _ _ _ HG') as LG'.
  destruct (round_fine _ _ HL RL) as (HL' & QL & _). destruct (round_fine _ _ HR RR) as (HR' & QR & _).
  econstructor; [exact RG|]. intros Hne. apply (IH d' L' R' G'); try assumption; [lia|exact (tame_next _ _ HL TL RL)|exact (tame_next _ _ HR TR RR)].
Qed.
Lemma glue_safe nbL nbR d L R G : glued d L R G -> nfa_ok nbL L -> nfa_ok nbR R -> lok d L -> rok R -> length G <= 32 * max_blocks ->
  nfa_ok max_blocks L -> nfa_ok max_blocks R ->
  optimize_safe L = true -> optimize_safe R = true -> optimize_safe G = true.
Proof.
  intros HG HL HR Hl Hr HC HL2 HR2 SL SR. unfold optimize_safe in *.
  apply tame_safe; [eapply glued_ok; eauto|]. eapply (glue_tame _ d L R G (le_n _) HG); eauto; try (eapply ok_fine; eassumption).
  - eapply safe_tame; [exact HL2| |exact SL]. lia.
  - eapply safe_tame; [exact HR2| |exact SR]. lia.
Qed.
