(** Cutting a pattern at a class. The automaton of a pattern in which a class with a character stands
    between two parts is put together from the automaton of the first part with the class and that of
    the class with the second part, and the optimisation passes (expression.rs:212-435) work on the two
    parts independently. *)
From Verif Require Export RunsProofs.

(** ** Automata, extensionally *)
Lemma st_ext st st' : length st = length st' ->
  (forall i, i < length st -> chars (X st i) = chars (X st' i) /\ next (X st i) = next (X st' i) /\ forall t, E st i t <-> E st' i t) -> st = st'.
Proof.
  intros Hl H. apply (nth_ext _ _ state_new state_new Hl). intros i Hi. destruct (H i Hi) as (H1 & H2 & H3). unfold E in H3. unfold X in H1, H2, H3. clear H.
  destruct (nth i st state_new) as [e c n], (nth i st' state_new) as [e' c' n']. cbn [eps chars next] in *. subst c' n'. f_equal.
  apply mem_ext. intros j. apply eq_true_iff_eq. apply H3.
Qed.
Lemma ok_next nblk st i : nfa_ok nblk st -> i < length st -> next (X st i) < length st.
Proof. intros H Hi. exact (proj1 (o_rng _ _ H _ _ (X_nth _ _ Hi))). Qed.
Lemma ok_E nblk st i t : nfa_ok nblk st -> i < length st -> E st i t -> t < length st.
Proof. intros H Hi. exact (proj2 (o_rng _ _ H _ _ (X_nth _ _ Hi)) t). Qed.
Lemma E_in st i t : E st i t -> i < length st.
Proof.
  intros H. destruct (Nat.lt_ge_cases i (length st)) as [C|C]; [exact C|]. unfold E in H. rewrite X_past in H by exact C.
  change (eps state_new) with 0%N in H. rewrite mem_0 in H. discriminate.
Qed.
Lemma ok_fin nblk st : nfa_ok nblk st -> isemp st (length st - 1) = false /\ next (X st (length st - 1)) = length st - 1.
Proof.
  intros H. destruct (o_fin _ _ H) as (x & Hx & Hc & Hn). unfold isemp. rewrite (X_of _ _ _ Hx). split; [apply N.eqb_neq; exact Hc|exact Hn].
Qed.
Lemma ok_of nblk st : 0 < length st -> length st <= 32 * nblk -> (forall i, i < length st -> next (X st i) < length st) ->
  (forall i t, i < length st -> E st i t -> t < length st) -> isemp st (length st - 1) = false -> next (X st (length st - 1)) = length st - 1 -> nfa_ok nblk st.
Proof.
  intros H1 H2 H3 H4 H5 H6. split; [exact H1|exact H2| |].
  - intros i x Hx. assert (Hi : i < length st) by (eapply nth_lt; exact Hx). rewrite <- (X_of _ _ _ Hx). split; [apply H3; exact Hi|]. intros j. apply H4. exact Hi.
  - exists (X st (length st - 1)). split; [apply X_nth; lia|]. split; [apply N.eqb_neq; exact H5|exact H6].
Qed.
Lemma ok_blocks nblk nblk' st : nfa_ok nblk st -> length st <= 32 * nblk' -> nfa_ok nblk' st.
Proof. intros [A B C D] H. split; auto. Qed.

(** ** Reachability *)
Inductive reaches (st : list state) : nat -> nat -> Prop :=
| re_refl i : reaches st i i
| re_step i j t : E st i j -> reaches st j t -> reaches st i t.
Lemma reach_reaches st i t : reach st i t <-> reaches st i t.
Proof.
  unfold reach. split.
  - intros P. remember [] as w eqn:Ew. revert Ew. induction P as [s|s t w u He P IH|s c t w u He P IH]; intros Ew; [constructor| |discriminate].
    apply edge0 in He. destruct He as (x & Hx & Hm). eapply re_step; [|apply IH; exact Ew]. unfold E. rewrite (X_of _ _ _ Hx). exact Hm.
  - induction 1 as [i|i j t He _ IH]; [constructor|]. eapply path_eps; [|exact IH]. apply edge0. exists (X st i).
    split; [apply X_nth; eapply E_in; exact He|exact He].
Qed.
Record closes (st st1 : list state) : Prop := {
  cl_len : length st1 = length st;
  cl_chr : forall i, i < length st -> chars (X st1 i) = chars (X st i) /\ next (X st1 i) = next (X st i);
  cl_E : forall i t, i < length st -> (E st1 i t <-> reaches st i t)
}.
Lemma ok_cap nblk st : nfa_ok nblk st -> in_cap nblk st.
Proof.
  intros H. split; [apply H|]. intros i x j Hx Hj. destruct (o_rng _ _ H _ _ Hx) as [_ H2]. specialize (H2 _ Hj). pose proof (o_cap _ _ H). lia.
Qed.
Lemma closes_ok nblk st : nfa_ok nblk st -> exists st1, epsilon_transitive_closure nblk st = Ok st1 /\ closes st st1 /\ nfa_ok nblk st1.
Proof.
  intros H. destruct (closure_nfa nblk st H) as (st1 & E1 & H1 & _). exists st1. split; [exact E1|]. split; [|exact H1].
  destruct (closure_ok nblk st (ok_cap _ _ H)) as (st2 & E2 & Hl & Hs). rewrite E1 in E2. injection E2 as <-.
  split; [exact Hl| |].
  - intros i Hi. destruct (Hs _ _ (X_nth _ _ Hi)) as (y & Hy & Hc & Hn & _). rewrite (X_of _ _ _ Hy). auto.
  - intros i t Hi. destruct (Hs _ _ (X_nth _ _ Hi)) as (y & Hy & _ & _ & He). unfold E. rewrite (X_of _ _ _ Hy), He. apply reach_reaches.
Qed.
Lemma closes_det st a b : closes st a -> closes st b -> a = b.
Proof.
  intros A B. apply st_ext; [rewrite (cl_len _ _ A), (cl_len _ _ B); reflexivity|]. intros i Hi. rewrite (cl_len _ _ A) in Hi.
  destruct (cl_chr _ _ A i Hi) as [-> ->]. destruct (cl_chr _ _ B i Hi) as [-> ->]. split; [reflexivity|]. split; [reflexivity|].
  intros t. rewrite (cl_E _ _ A i t Hi), (cl_E _ _ B i t Hi). reflexivity.
Qed.

(** ** Gluing: [L] ends with a class in front of its final state, [R] starts with that class. *)
Record glued (d : nat) (L R G : list state) : Prop := {
  gl_L : length L = S (S d);
  gl_R : 2 <= length R;
  gl_G : length G = d + length R;
  gl_left : forall i, i <= d -> chars (X G i) = chars (X L i) /\
    next (X G i) = (if next (X L i) =? S d then d + next (X R 0) else next (X L i)) /\ forall t, E G i t <-> E L i t;
  gl_right : forall r, 1 <= r < length R -> chars (X G (d + r)) = chars (X R r) /\
    next (X G (d + r)) = (if next (X R r) =? 0 then 0 else d + next (X R r)) /\ forall t, E G (d + r) t <-> exists v, t = d + v /\ E R r v
}.
Record lok (d : nat) (L : list state) : Prop := {
  lo_E : forall i t, i <= d -> E L i t -> t <= d;
  lo_f : forall t, E L (S d) t -> t = S d
}.
Record rok (R : list state) : Prop := {
  ro_c : isemp R 0 = false;
  ro_0 : forall t, E R 0 t -> t = 0;
  ro_E : forall r t, 1 <= r -> E R r t -> 1 <= t;
  ro_n : 1 <= next (X R 0)
}.
Lemma glued_ok nblk nb1 nb2 d L R G : glued d L R G -> nfa_ok nb1 L -> nfa_ok nb2 R -> lok d L -> length G <= 32 * nblk -> nfa_ok nblk G.
Proof.
  intros H HL HR Hl Hc. pose proof (gl_L _ _ _ _ H) as LL. pose proof (gl_R _ _ _ _ H) as LR. pose proof (gl_G _ _ _ _ H) as LG.
  assert (Hcase : forall i, i < length G -> i <= d \/ exists r, i = d + r /\ 1 <= r < length R).
  { intros i Hi. destruct (Nat.le_gt_cases i d); [auto|]. right. exists (i - d). lia. }
  destruct (ok_fin _ _ HR) as [F1 F2].
  apply ok_of; [lia|exact Hc| | | |].
  - intros i Hi. destruct (Hcase i Hi) as [C|(r & -> & C)].
    + destruct (gl_left _ _ _ _ H i C) as (_ & -> & _). pose proof (ok_next _ _ i HL ltac:(lia)). pose proof (ok_next _ _ 0 HR ltac:(lia)).
      destruct (Nat.eqb_spec (next (X L i)) (S d)); lia.
    + destruct (gl_right _ _ _ _ H r C) as (_ & -> & _). pose proof (ok_next _ _ r HR ltac:(lia)). destruct (next (X R r) =? 0); lia.
  - intros i t Hi He. destruct (Hcase i Hi) as [C|(r & -> & C)].
    + apply (gl_left _ _ _ _ H i C) in He. apply (lo_E _ _ Hl i t C) in He. lia.
    + apply (gl_right _ _ _ _ H r C) in He. destruct He as (v & -> & Hv). pose proof (ok_E _ _ r v HR ltac:(lia) Hv). lia.
  - replace (length G - 1) with (d + (length R - 1)) by lia. destruct (gl_right _ _ _ _ H (length R - 1) ltac:(lia)) as (Hx & _). unfold isemp in *. rewrite Hx. exact F1.
  - replace (length G - 1) with (d + (length R - 1)) by lia. destruct (gl_right _ _ _ _ H (length R - 1) ltac:(lia)) as (_ & -> & _). rewrite F2.
    destruct (Nat.eqb_spec (length R - 1) 0); lia.
Qed.

(** ** The closure *)
Lemma reaches_left d L R G i t : glued d L R G -> lok d L -> i <= d -> (reaches G i t <-> reaches L i t).
Proof.
  intros H Hl Hi. split; intros P; revert Hi; induction P as [i|i j t He _ IH]; intros Hi; [constructor| |constructor|].
  - apply (gl_left _ _ _ _ H i Hi) in He. eapply re_step; [exact He|]. apply IH. eapply lo_E; eauto.
  - eapply re_step; [apply (gl_left _ _ _ _ H i Hi); exact He|]. apply IH. eapply lo_E; eauto.
Qed.
Lemma reaches_right nb d L R G r t : glued d L R G -> nfa_ok nb R -> rok R -> 1 <= r < length R -> (reaches G (d + r) t <-> exists v, t = d + v /\ reaches R r v).
Proof.
  intros H HR Hr Hi. split.
  - intros P. remember (d + r) as i eqn:Ei. revert r Ei Hi. induction P as [i|i j t He _ IH]; intros r -> Hi; [exists r; split; [reflexivity|constructor]|].
    apply (gl_right _ _ _ _ H r Hi) in He. destruct He as (v & -> & Hv). pose proof (ro_E _ Hr r v ltac:(lia) Hv). pose proof (ok_E _ _ r v HR ltac:(lia) Hv).
    destruct (IH v eq_refl ltac:(lia)) as (w & -> & Hw). exists w. split; [reflexivity|]. eapply re_step; eauto.
  - intros (v & -> & P). revert Hi. induction P as [r|r v w He _ IH]; intros Hi; [constructor|].
    pose proof (ro_E _ Hr r v ltac:(lia) He). pose proof (ok_E _ _ r v HR ltac:(lia) He).
    eapply re_step; [apply (gl_right _ _ _ _ H r Hi); exists v; split; [reflexivity|exact He]|]. apply IH. lia.
Qed.
Lemma lok_closes nb d L L1 : length L = S (S d) -> nfa_ok nb L -> lok d L -> closes L L1 -> lok d L1.
Proof.
  intros LL HL Hl C. split.
  - intros i t Hi He. apply (cl_E _ _ C i t ltac:(lia)) in He. clear - Hl He Hi. revert Hi. induction He as [i|i j t He _ IH]; intros Hi; [exact Hi|]. apply IH. eapply lo_E; eauto.
  - intros t He. apply (cl_E _ _ C (S d) t ltac:(lia)) in He. clear - Hl He. remember (S d) as i eqn:Ei. revert Ei. induction He as [i|i j t He _ IH]; intros ->; [reflexivity|].
    pose proof (lo_f _ _ Hl _ He) as Hj. rewrite (IH Hj). exact Hj.
Qed.
Lemma rok_closes R R1 : 2 <= length R -> rok R -> closes R R1 -> rok R1.
Proof.
  intros LR Hr C. destruct (cl_chr _ _ C 0 ltac:(lia)) as [C1 C2]. split.
  - unfold isemp. rewrite C1. apply Hr.
  - intros t He. apply (cl_E _ _ C 0 t ltac:(lia)) in He. clear - Hr He. remember 0 as i eqn:Ei in He. revert Ei. induction He as [i|i j t He _ IH]; intros ->; [reflexivity|].
    exact (IH (ro_0 _ Hr _ He)).
  - intros r t Hi He. assert (Hlt : r < length R) by (rewrite <- (cl_len _ _ C); eapply E_in; exact He). apply (cl_E _ _ C r t Hlt) in He. clear - Hr He Hi.
    revert Hi. induction He as [i|i j t He _ IH]; intros Hi; [exact Hi|]. apply IH. eapply ro_E; eauto.
  - rewrite C2. apply Hr.
Qed.
Lemma glued_closes nb nb2 d L R G L1 R1 G1 : glued d L R G -> nfa_ok nb2 R -> lok d L -> rok R -> nfa_ok nb L ->
  closes L L1 -> closes R R1 -> closes G G1 -> glued d L1 R1 G1.
Proof.
  intros H HR Hl Hr HL CL CR CG. pose proof (gl_L _ _ _ _ H) as LL. pose proof (gl_R _ _ _ _ H) as LR. pose proof (gl_G _ _ _ _ H) as LG.
  split; [rewrite (cl_len _ _ CL); exact LL|rewrite (cl_len _ _ CR); exact LR|rewrite (cl_len _ _ CR), (cl_len _ _ CG); exact LG| |].
  - intros i Hi. destruct (cl_chr _ _ CL i ltac:(lia)) as [-> ->]. destruct (cl_chr _ _ CG i ltac:(lia)) as [-> ->]. destruct (cl_chr _ _ CR 0 ltac:(lia)) as [_ ->].
    destruct (gl_left _ _ _ _ H i Hi) as (Q1 & Q2 & _). split; [exact Q1|]. split; [exact Q2|]. intros t.
    rewrite (cl_E _ _ CG i t ltac:(lia)), (cl_E _ _ CL i t ltac:(lia)). eapply reaches_left; eauto.
  - rewrite (cl_len _ _ CR). intros r Hi. destruct (cl_chr _ _ CR r ltac:(lia)) as [-> ->]. destruct (cl_chr _ _ CG (d + r) ltac:(lia)) as [-> ->].
    destruct (gl_right _ _ _ _ H r Hi) as (Q1 & Q2 & _). split; [exact Q1|]. split; [exact Q2|]. intros t.
    rewrite (cl_E _ _ CG (d + r) t ltac:(lia)), (reaches_right _ _ _ _ _ _ _ H HR Hr Hi). split; intros (v & Hv & P); exists v; (split; [exact Hv|]); apply (cl_E _ _ CR r v ltac:(lia)); exact P.
Qed.
