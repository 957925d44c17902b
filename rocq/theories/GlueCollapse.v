(** Cutting a pattern at a class: the merging of pairs (expression.rs:257-333). *)
From Verif Require Export GlueProofs.

Definition fine (st : list state) : Prop := nfa_ok (length st) st.
Lemma fine_ok nb st : fine st -> length st <= 32 * nb -> nfa_ok nb st.
Proof. intros H. apply ok_blocks with (nblk := length st). exact H. Qed.
Lemma ok_fine nb st : nfa_ok nb st -> fine st.
Proof. intros H. apply (ok_blocks nb); [exact H|]. lia. Qed.

(** ** Pairs *)
Definition pairb (st : list state) (e c : nat) : bool :=
  negb (c =? 0) && isemp st e && negb (next (X st c) =? e) && negb (next (X st c) =? c) &&
  bitset_only_contains (eps (X st c)) c && mem (eps (X st e)) c && mem (eps (X st e)) (next (X st c)) &&
  subset (eps (X st e)) (N.lor (ins (eps (X st c)) e) (eps (X st (next (X st c))))).
Lemma is_a_pair_b nb st e c : nfa_ok nb st -> e < length st -> c < length st -> is_a_pair nb e c st = Ok (pairb st e c).
Proof.
  intros H He Hc. pose proof (o_cap _ _ H) as Hcap. pose proof (ok_next _ _ c H Hc) as Hn. unfold is_a_pair, pairb, isemp.
  assert (Hie : index st e = Ok (X st e)) by (apply index_Ok, X_nth; exact He).
  assert (Hic : index st c = Ok (X st c)) by (apply index_Ok, X_nth; exact Hc).
  assert (Hin : index st (next (X st c)) = Ok (X st (next (X st c)))) by (apply index_Ok, X_nth; exact Hn).
  rewrite Hie. cbn [bind]. rewrite Hic. cbn [bind]. rewrite chk_ok by lia. cbn [bind]. rewrite Hin. cbn [bind].
  destruct (c =? 0); cbn [negb andb]; [reflexivity|].
  destruct (N.eqb (chars (X st e)) EMPTY); cbn [negb andb]; [|reflexivity].
  destruct (next (X st c) =? e); cbn [negb andb]; [reflexivity|].
  destruct (next (X st c) =? c); cbn [negb andb]; [reflexivity|].
  replace (c <? 32 * nb) with true by (symmetry; apply Nat.ltb_lt; lia). cbn [negb]. rewrite andb_false_r.
  destruct (bitset_only_contains (eps (X st c)) c); cbn [negb andb]; [|reflexivity].
  rewrite chk_ok by lia. cbn [bind]. destruct (mem (eps (X st e)) c); cbn [negb andb]; [|reflexivity].
  rewrite chk_ok by lia. cbn [bind]. destruct (mem (eps (X st e)) (next (X st c))); cbn [negb andb]; reflexivity.
Qed.
Record pairp (st : list state) (e c : nat) : Prop := {
  pp_0 : c <> 0;
  pp_chars : isemp st e = true;
  pp_nx_e : next (X st c) <> e;
  pp_nx_c : next (X st c) <> c;
  pp_eps_c : forall j, E st c j -> j = c;
  pp_to_c : E st e c;
  pp_to_n : E st e (next (X st c));
  pp_sub : forall j, E st e j -> E st c j \/ j = e \/ E st (next (X st c)) j
}.
Lemma only_iff x i : bitset_only_contains x i = true <-> forall j, mem x j = true -> j = i.
Proof.
  unfold bitset_only_contains. rewrite orb_true_iff, andb_true_iff, N.eqb_eq, Nat.eqb_eq. split.
  - intros [->|[H1 H2]] j Hj; [rewrite mem_0 in Hj; discriminate|]. exact (ones_one _ _ H1 H2 _ Hj).
  - intros H. destruct (N.eq_dec x 0) as [->|Hne]; [auto|]. right. destruct (neq0_mem _ Hne) as [j Hj]. pose proof (H _ Hj). subst j. split; [exact Hj|].
    assert (Hnd : NoDup (ones x)) by (apply NoDup_filter, seq_NoDup).
    assert (Hall : forall j, In j (ones x) -> j = i) by (intros j Hi; apply H, in_ones; exact Hi).
    apply in_ones in Hj. destruct (ones x) as [|a [|b l]]; [destruct Hj|reflexivity|]. exfalso.
    pose proof (Hall a (or_introl eq_refl)). pose proof (Hall b (or_intror (or_introl eq_refl))). subst a b. inversion Hnd as [|? ? Hn _]. apply Hn. left. reflexivity.
Qed.
Lemma pairb_iff st e c : pairb st e c = true <-> pairp st e c.
Proof.
  unfold pairb. rewrite !andb_true_iff, !negb_true_iff, !Nat.eqb_neq, only_iff, subset_spec. split.
  - intros (((((((H1 & H2) & H3) & H4) & H5) & H6) & H7) & H8). split; auto. intros j Hj. apply H8 in Hj. rewrite mem_lor, mem_ins, !orb_true_iff, Nat.eqb_eq in Hj.
    unfold E. destruct Hj as [[Hj|Hj]|Hj]; auto.
  - intros [H1 H2 H3 H4 H5 H6 H7 H8]. repeat split; auto. intros j Hj. rewrite mem_lor, mem_ins, !orb_true_iff, Nat.eqb_eq. destruct (H8 _ Hj) as [F|[F|F]]; auto.
Qed.
Lemma pairp_a_pair nb st e c : nfa_ok nb st -> e < length st -> c < length st -> pairp st e c ->
  a_pair e c st (X st e) (X st c) (X st (next (X st c))).
Proof.
  intros H He Hc P. pose proof (ok_next _ _ c H Hc) as Hn. split; try (apply X_nth; assumption); try (apply P).
  - intros ->. exact (pp_nx_c _ _ _ P (pp_eps_c _ _ _ P _ (pp_to_n _ _ _ P))).
  - apply N.eqb_eq. apply P.
  - intros j Hj. destruct (pp_sub _ _ _ P j Hj) as [F|[F|F]]; [left; exact (pp_eps_c _ _ _ P j F)|auto|auto].
Qed.
Lemma pairp_ne st e c : pairp st e c -> e <> c.
Proof. intros P ->. exact (pp_nx_c _ _ _ P (pp_eps_c _ _ _ P _ (pp_to_n _ _ _ P))). Qed.

Fixpoint fp (P : nat -> nat -> bool) (i : nat) (js : list nat) : option (nat * nat) :=
  match js with
  | [] => None
  | j :: js' => if P i j then Some (i, j) else if P j i then Some (j, i) else fp P i js'
  end.
Lemma find_pair_fp nb st i js : nfa_ok nb st -> i < length st -> Forall (fun j => j < length st) js -> find_pair nb i js st = Ok (fp (pairb st) i js).
Proof.
  intros H Hi. induction 1 as [|j js Hj _ IH]; [reflexivity|]. cbn [find_pair fp]. rewrite (is_a_pair_b _ _ _ _ H Hi Hj), (is_a_pair_b _ _ _ _ H Hj Hi). cbn [bind].
  destruct (pairb st i j); [reflexivity|]. destruct (pairb st j i); [reflexivity|exact IH].
Qed.
Lemma fp_app P i a b : fp P i (a ++ b) = match fp P i a with Some r => Some r | None => fp P i b end.
Proof. induction a as [|j a IH]; [reflexivity|]. cbn [app fp]. destruct (P i j); [reflexivity|]. destruct (P j i); [reflexivity|exact IH]. Qed.
Lemma fp_none P i js : (forall j, In j js -> P i j = false /\ P j i = false) -> fp P i js = None.
Proof.
  induction js as [|j js IH]; intros H; [reflexivity|]. cbn [fp]. destruct (H j (or_introl eq_refl)) as [-> ->]. apply IH. intros k Hk. apply H. right. exact Hk.
Qed.
Lemma fp_map (P Q : nat -> nat -> bool) d i js : (forall j, In j js -> P (d + i) (d + j) = Q i j /\ P (d + j) (d + i) = Q j i) ->
  fp P (d + i) (map (fun j => d + j) js) = option_map (fun p => (d + fst p, d + snd p)) (fp Q i js).
Proof.
  induction js as [|j js IH]; intros H; [reflexivity|]. cbn [fp map]. destruct (H j (or_introl eq_refl)) as [-> ->].
  destruct (Q i j); [reflexivity|]. destruct (Q j i); [reflexivity|]. apply IH. intros k Hk. apply H. right. exact Hk.
Qed.
Lemma fp_some P i js e c : fp P i js = Some (e, c) -> P e c = true /\ exists j, In j js /\ ((e = i /\ c = j) \/ (e = j /\ c = i)).
Proof.
  induction js as [|j js IH]; [discriminate|]. cbn [fp]. destruct (P i j) eqn:P1; [intros H; injection H as <- <-; split; [exact P1|exists j; cbn; auto]|].
  destruct (P j i) eqn:P2; [intros H; injection H as <- <-; split; [exact P2|exists j; cbn; auto]|]. intros H. destruct (IH H) as (H1 & k & Hk & H2). split; [exact H1|]. exists k. cbn. auto.
Qed.

(** ** Merging one pair *)
Record collapses (e c : nat) (st st' : list state) : Prop := {
  co_len : length st' = length st - 1;
  co_at : forall m, m < length st - 1 -> let k := unslot c m in let v := if k =? e then X st c else X st k in
    chars (X st' m) = chars v /\ next (X st' m) = remap e c (next v) /\ forall t, E st' m t <-> exists u, E st k u /\ remap e c u = t
}.
Lemma collapses_det e c st a b : collapses e c st a -> collapses e c st b -> a = b.
Proof.
  intros A B. apply st_ext; [rewrite (co_len _ _ _ _ A), (co_len _ _ _ _ B); reflexivity|]. intros i Hi. rewrite (co_len _ _ _ _ A) in Hi.
  destruct (co_at _ _ _ _ A i Hi) as (-> & -> & HA). destruct (co_at _ _ _ _ B i Hi) as (-> & -> & HB). split; [reflexivity|]. split; [reflexivity|].
  intros t. rewrite HA, HB. reflexivity.
Qed.
Lemma collapses_ok nb st e c : nfa_ok nb st -> e < length st -> c < length st -> pairp st e c -> collapse_safe c st = true ->
  exists st', collapse nb e c st = Ok st' /\ collapses e c st st' /\ nfa_ok nb st'.
Proof.
  intros H He Hc P Hs. destruct (collapse_ok nb st e c _ _ _ H (pairp_a_pair nb st e c H He Hc P) Hs) as (st' & H1 & H2 & H3 & _).
  exists st'. split; [exact H1|]. split; [|exact H2]. destruct (collapse_rel nb st e c st' H (pairp_ne _ _ _ P) He Hc H1) as [Hl Hr]. split; [exact Hl|exact Hr].
Qed.
Lemma safe_iff c st : c < length st -> (collapse_safe c st = true <->
  forall k, k < length st -> k <> c -> (E st k c -> E st k (next (X st c))) /\ (isemp st k = false -> next (X st k) <> c)).
Proof.
  intros Hc. unfold collapse_safe. rewrite (X_nth _ _ Hc), forallb_forall. split.
  - intros H k Hk Hne. specialize (H (k, X st k)). cbn beta iota in H. rewrite in_combine_seq, Nat.sub_0_r in H. specialize (H (conj (Nat.le_0_l _) (X_nth _ _ Hk))).
    apply orb_true_iff in H. destruct H as [H|H]; [apply Nat.eqb_eq in H; contradiction|]. apply andb_true_iff in H. destruct H as [H1 H2]. split.
    + unfold E. intros He. rewrite He in H1. exact H1.
    + unfold isemp. intros Hi. rewrite Hi in H2. cbn [negb implb] in H2. apply negb_true_iff, Nat.eqb_neq in H2. exact H2.
  - intros H [k x] Hin. apply in_combine_seq in Hin. rewrite Nat.sub_0_r in Hin. destruct Hin as [_ Hx]. pose proof (nth_lt _ _ _ Hx) as Hk.
    destruct (Nat.eqb_spec k c) as [|Hne]; [reflexivity|]. cbn [orb]. destruct (H k Hk Hne) as [H1 H2]. unfold E, isemp in *. rewrite (X_of _ _ _ Hx) in *.
    apply andb_true_iff. split.
    + destruct (mem (eps x) c); [|reflexivity]. apply H1. reflexivity.
    + destruct (N.eqb (chars x) EMPTY); [reflexivity|]. cbn [negb implb]. apply negb_true_iff, Nat.eqb_neq. apply H2. reflexivity.
Qed.

(** ** The loop *)
Inductive steps : nat -> list state -> list state -> Prop :=
| sp_done i st : length st <= i -> steps i st st
| sp_skip i st st' : i < length st -> fp (pairb st) i (seq 0 (length st)) = None -> steps (S i) st st' -> steps i st st'
| sp_merge i st e c st1 st' : i < length st -> fp (pairb st) i (seq 0 (length st)) = Some (e, c) -> collapse_safe c st = true ->
    collapses e c st st1 -> steps i st1 st' -> steps i st st'.
Lemma seq_lt n : Forall (fun j => j < n) (seq 0 n).
Proof. apply Forall_forall. intros j Hj. apply in_seq in Hj. lia. Qed.
Lemma fp_facts st i e c : i < length st -> fp (pairb st) i (seq 0 (length st)) = Some (e, c) -> e < length st /\ c < length st /\ pairp st e c.
Proof.
  intros Hi H. apply fp_some in H. destruct H as (H1 & j & Hj & H2). apply in_seq in Hj. apply pairb_iff in H1. split; [|split; [|exact H1]]; destruct H2 as [[-> ->]|[-> ->]]; lia.
Qed.
Lemma loop_steps nb fuel : forall i st, nfa_ok nb st -> length st <= fuel + i -> collapse_loop_safe fuel nb i st = true ->
  exists st', collapse_loop fuel nb i st = Ok st' /\ steps i st st'.
Proof.
  induction fuel as [|fuel IH]; intros i st H Hf Hs; cbn [collapse_loop collapse_loop_safe] in *.
  - destruct (Nat.ltb_spec i (length st)); [lia|]. exists st. split; [reflexivity|apply sp_done; lia].
  - destruct (Nat.ltb_spec i (length st)) as [Hi|Hi]; [|exists st; split; [reflexivity|apply sp_done; lia]].
    rewrite (find_pair_fp nb st i _ H Hi (seq_lt _)) in *. cbn [bind]. destruct (fp _ _ _) as [[e c]|] eqn:Hfp.
    + destruct (fp_facts _ _ _ _ Hi Hfp) as (He & Hc & P). apply andb_true_iff in Hs. destruct Hs as [Hs1 Hs2].
      destruct (collapses_ok nb st e c H He Hc P Hs1) as (st1 & H1 & H2 & H3). rewrite H1 in *. cbn [bind].
      pose proof (co_len _ _ _ _ H2) as Hl. destruct (IH i st1 H3 ltac:(lia) Hs2) as (st' & H4 & H5). exists st'. split; [exact H4|]. eapply sp_merge; eauto.
    + destruct (IH (S i) st H ltac:(lia) Hs) as (st' & H4 & H5). exists st'. split; [exact H4|]. apply sp_skip; auto.
Qed.
Lemma steps_loop nb i st st' : steps i st st' -> nfa_ok nb st -> nfa_ok nb st' /\ forall fuel, length st <= fuel + i ->
  collapse_loop_safe fuel nb i st = true /\ collapse_loop fuel nb i st = Ok st'.
Proof.
  induction 1 as [i st Hi|i st st' Hi Hfp _ IH|i st e c st1 st' Hi Hfp Hs Hco _ IH]; intros H.
  - split; [exact H|]. intros fuel Hf. destruct fuel; cbn [collapse_loop collapse_loop_safe]; destruct (Nat.ltb_spec i (length st)); try lia; auto.
  - destruct (IH H) as [IH1 IH2]. split; [exact IH1|]. intros fuel Hf. destruct fuel as [|fuel]; [lia|]. cbn [collapse_loop collapse_loop_safe].
    destruct (Nat.ltb_spec i (length st)); [|lia]. rewrite (find_pair_fp nb st i _ H Hi (seq_lt _)), Hfp. cbn [bind]. apply IH2. lia.
  - destruct (fp_facts _ _ _ _ Hi Hfp) as (He & Hc & P). destruct (collapses_ok nb st e c H He Hc P Hs) as (st2 & H1 & H2 & H3).
    pose proof (collapses_det _ _ _ _ _ H2 Hco). subst st2. pose proof (co_len _ _ _ _ Hco) as Hl. destruct (IH H3) as [IH1 IH2]. split; [exact IH1|].
    intros fuel Hf. destruct fuel as [|fuel]; [lia|]. cbn [collapse_loop collapse_loop_safe].
    destruct (Nat.ltb_spec i (length st)); [|lia]. rewrite (find_pair_fp nb st i _ H Hi (seq_lt _)), Hfp. cbn [bind]. rewrite Hs, H1. cbn [andb bind]. apply IH2. lia.
Qed.
Lemma steps_len i st st' : steps i st st' -> length st' <= length st /\ (length st' = length st -> st' = st).
Proof.
  induction 1 as [i st Hi|i st st' Hi Hfp _ IH|i st e c st1 st' Hi Hfp Hs Hco _ [IH1 IH2]]; [auto|exact IH|].
  pose proof (co_len _ _ _ _ Hco). lia.
Qed.

(** ** Pairs of the glued automaton *)
Section pairs.
  Variables (d : nat) (L R G : list state).
  Hypothesis HG : glued d L R G.
  Hypothesis HL : fine L.
  Hypothesis HR : fine R.
  Hypothesis Hl : lok d L.
  Hypothesis Hr : rok R.
  Let LL := gl_L _ _ _ _ HG.
  Let LR := gl_R _ _ _ _ HG.
  Let LG := gl_G _ _ _ _ HG.

  Lemma left_E i t : i <= d -> (E G i t <-> E L i t).
  Proof. intros Hi. apply (gl_left _ _ _ _ HG i Hi). Qed.
  Lemma left_lt i t : i <= d -> E G i t -> t <= d.
  Proof. intros Hi He. apply left_E in He; [|exact Hi]. eapply lo_E; eauto. Qed.
  Lemma left_emp i : i <= d -> isemp G i = isemp L i.
  Proof. intros Hi. unfold isemp. destruct (gl_left _ _ _ _ HG i Hi) as (-> & _). reflexivity. Qed.
  Lemma left_next i : i <= d -> (next (X L i) = S d /\ next (X G i) = d + next (X R 0)) \/ (next (X L i) <= d /\ next (X G i) = next (X L i)).
  Proof.
    intros Hi. destruct (gl_left _ _ _ _ HG i Hi) as (_ & -> & _). pose proof (ok_next _ _ i HL ltac:(lia)). destruct (Nat.eqb_spec (next (X L i)) (S d)); [auto|right; split; [lia|reflexivity]].
  Qed.
  Lemma entry_lt : 1 <= next (X R 0) < length R.
  Proof. split; [apply Hr|]. apply (ok_next _ _ 0 HR). lia. Qed.
  Lemma right_E r v : 1 <= r < length R -> (E G (d + r) (d + v) <-> E R r v).
  Proof.
    intros Hi. destruct (gl_right _ _ _ _ HG r Hi) as (_ & _ & H). rewrite H. split; [intros (w & Hw & He); replace v with w by lia; exact He|]. intros He. exists v. auto.
  Qed.
  Lemma right_gt r t : 1 <= r < length R -> E G (d + r) t -> exists v, t = d + v /\ 1 <= v < length R /\ E R r v.
  Proof.
    intros Hi He. destruct (gl_right _ _ _ _ HG r Hi) as (_ & _ & H). apply H in He. destruct He as (v & -> & He). exists v. split; [reflexivity|].
    split; [split; [apply (ro_E _ Hr r v); [lia|exact He]|apply (ok_E _ _ r v HR); [lia|exact He]]|exact He].
  Qed.
  Lemma right_emp r : 1 <= r < length R -> isemp G (d + r) = isemp R r.
  Proof. intros Hi. unfold isemp. destruct (gl_right _ _ _ _ HG r Hi) as (-> & _). reflexivity. Qed.
  Lemma right_next r : 1 <= r < length R -> (next (X R r) = 0 /\ next (X G (d + r)) = 0) \/ (1 <= next (X R r) < length R /\ next (X G (d + r)) = d + next (X R r)).
  Proof.
    intros Hi. destruct (gl_right _ _ _ _ HG r Hi) as (_ & -> & _). pose proof (ok_next _ _ r HR ltac:(lia)). destruct (Nat.eqb_spec (next (X R r)) 0); [auto|right; split; [lia|reflexivity]].
  Qed.

  Lemma pair_left e c : e <= d -> c <= d -> pairb G e c = pairb L e c.
  Proof.
    intros He Hc. apply eq_true_iff_eq. rewrite !pairb_iff. pose proof entry_lt as Hen. destruct (left_next c Hc) as [[N1 N2]|[N1 N2]]; split; intros P.
    - pose proof (pp_to_n _ _ _ P) as T. apply left_lt in T; [|exact He]. lia.
    - pose proof (pp_to_n _ _ _ P) as T. apply (lo_E _ _ Hl) in T; [|exact He]. lia.
    - destruct P as [P1 P2 P3 P4 P5 P6 P7 P8]. rewrite N2 in *. rewrite left_emp in P2 by exact He. split; auto.
      + intros j Hj. apply P5. apply left_E; assumption.
      + apply left_E; assumption.
      + apply left_E; assumption.
      + intros j Hj. rewrite <- !left_E in * by assumption. auto.
    - destruct P as [P1 P2 P3 P4 P5 P6 P7 P8]. split; rewrite ?N2; auto.
      + rewrite left_emp; assumption.
      + intros j Hj. apply P5. apply left_E; assumption.
      + apply left_E; assumption.
      + apply left_E; assumption.
      + intros j Hj. rewrite !left_E in * by assumption. auto.
  Qed.
  Lemma pair_right e c : 1 <= e < length R -> 1 <= c < length R -> pairb G (d + e) (d + c) = pairb R e c.
  Proof.
    intros He Hc. apply eq_true_iff_eq. rewrite !pairb_iff. destruct (right_next c Hc) as [[N1 N2]|[N1 N2]]; split; intros P.
    - pose proof (pp_to_n _ _ _ P) as T. apply right_gt in T; [|exact He]. destruct T as (v & T & Hv & _). lia.
    - pose proof (pp_to_n _ _ _ P) as T. apply (ro_E _ Hr) in T; lia.
    - destruct P as [P1 P2 P3 P4 P5 P6 P7 P8]. rewrite N2 in *. rewrite right_emp in P2 by exact He. split; auto; try lia.
      + intros j Hj. apply right_E in Hj; [|exact Hc]. apply P5 in Hj. lia.
      + apply right_E; assumption.
      + apply right_E; assumption.
      + intros j Hj. apply right_E in Hj; [|exact He]. apply P8 in Hj. rewrite !right_E in Hj by assumption. destruct Hj as [F|[F|F]]; auto. right; left; lia.
    - destruct P as [P1 P2 P3 P4 P5 P6 P7 P8]. split; rewrite ?N2; auto; try lia.
      + rewrite right_emp; assumption.
      + intros j Hj. apply right_gt in Hj; [|exact Hc]. destruct Hj as (v & -> & _ & Hj). apply P5 in Hj. lia.
      + apply right_E; assumption.
      + apply right_E; assumption.
      + intros j Hj. apply right_gt in Hj; [|exact He]. destruct Hj as (v & -> & _ & Hj). rewrite !right_E by assumption. destruct (P8 v Hj) as [F|[F|F]]; auto.
  Qed.
  Lemma pair_cross i r : i <= d -> 1 <= r < length R -> pairb G i (d + r) = false /\ pairb G (d + r) i = false.
  Proof.
    intros Hi Hj. split; apply not_true_is_false; intros P; apply pairb_iff in P; pose proof (pp_to_c _ _ _ P) as T.
    - apply left_lt in T; [|exact Hi]. lia.
    - apply right_gt in T; [|exact Hj]. destruct T as (v & T & Hv & _). lia.
  Qed.
  Lemma pair_fin i : pairb L i (S d) = false /\ pairb L (S d) i = false.
  Proof.
    destruct (ok_fin _ _ HL) as [F1 F2]. rewrite LL in F1, F2. replace (S (S d) - 1) with (S d) in * by lia.
    split; apply not_true_is_false; intros P; apply pairb_iff in P.
    - exact (pp_nx_c _ _ _ P F2).
    - pose proof (pp_chars _ _ _ P). congruence.
  Qed.
  Lemma pair_start r : pairb R r 0 = false /\ pairb R 0 r = false.
  Proof.
    split; apply not_true_is_false; intros P; apply pairb_iff in P.
    - exact (pp_0 _ _ _ P eq_refl).
    - pose proof (pp_chars _ _ _ P). pose proof (ro_c _ Hr). congruence.
  Qed.

  Lemma seq_L : seq 0 (length L) = seq 0 (S d) ++ [S d].
  Proof. rewrite LL, seq_S. reflexivity. Qed.
  Lemma seq_R : seq 0 (length R) = 0 :: seq 1 (length R - 1).
  Proof. pose proof (gl_R _ _ _ _ HG) as H. clear - H. destruct (length R) as [|n]; [lia|]. cbn [seq]. rewrite Nat.sub_succ, Nat.sub_0_r. reflexivity. Qed.
  Lemma seq_G : seq 0 (length G) = seq 0 (S d) ++ map (fun j => d + j) (seq 1 (length R - 1)).
  Proof.
    rewrite LG. replace (d + length R) with (S d + (length R - 1)) by lia. rewrite seq_app. f_equal. cbn [plus].
    replace (S d) with (d + 1) by lia. generalize (length R - 1) as n. generalize 1 as a. clear. intros a n. revert a. induction n as [|n IH]; intros a; [reflexivity|].
    cbn [seq map]. f_equal. rewrite <- Nat.add_succ_r. apply IH.
  Qed.
  Lemma fp_left i : i <= d -> fp (pairb G) i (seq 0 (length G)) = fp (pairb L) i (seq 0 (length L)).
  Proof.
    intros Hi. rewrite seq_L, seq_G, !fp_app.
    replace (fp (pairb G) i (seq 0 (S d))) with (fp (pairb L) i (seq 0 (S d))).
    2:{ pose proof (fp_map (pairb G) (pairb L) 0 i (seq 0 (S d))) as H. cbn [plus] in H. rewrite map_id in H. rewrite H.
        - destruct (fp (pairb L) i (seq 0 (S d))) as [[? ?]|]; reflexivity.
        - intros j Hj. apply in_seq in Hj. split; apply pair_left; lia. }
    destruct (fp (pairb L) i (seq 0 (S d))) as [p|]; [reflexivity|].
    rewrite !fp_none; [reflexivity| |].
    - intros j [<-|[]]. apply pair_fin.
    - intros j Hj. apply in_map_iff in Hj. destruct Hj as (r & <- & Hj). apply in_seq in Hj. apply pair_cross; lia.
  Qed.
  Lemma fp_fin : fp (pairb L) (S d) (seq 0 (length L)) = None.
  Proof. apply fp_none. intros j _. destruct (pair_fin j). auto. Qed.
  Lemma fp_start : fp (pairb R) 0 (seq 0 (length R)) = None.
  Proof. apply fp_none. intros j _. destruct (pair_start j). auto. Qed.
  Lemma fp_right r : 1 <= r < length R ->
    fp (pairb G) (d + r) (seq 0 (length G)) = option_map (fun p => (d + fst p, d + snd p)) (fp (pairb R) r (seq 0 (length R))).
  Proof.
    intros Hi. rewrite seq_R, seq_G, fp_app. rewrite (fp_none (pairb G)).
    2:{ intros j Hj. apply in_seq in Hj. destruct (pair_cross j r ltac:(lia) Hi). auto. }
    change (0 :: seq 1 (length R - 1)) with ([0] ++ seq 1 (length R - 1)). rewrite fp_app. rewrite (fp_none (pairb R) r [0]).
    2:{ intros j [<-|[]]. apply pair_start. }
    apply fp_map. intros j Hj. apply in_seq in Hj. split; apply pair_right; lia.
  Qed.
  Lemma safe_left c : c <= d -> c <> 0 -> next (X L c) <= d -> collapse_safe c L = true -> collapse_safe c G = true.
  Proof.
    intros Hc H0 Hn H. rewrite safe_iff in H by lia. apply safe_iff; [lia|]. intros k Hk Hne. pose proof entry_lt as Hen.
    destruct (left_next c Hc) as [[N1 N2]|[N1 N2]]; [lia|]. rewrite N2.
    destruct (Nat.le_gt_cases k d) as [C|C].
    - destruct (H k ltac:(lia) Hne) as [A B]. rewrite !left_E, left_emp by exact C. split; [exact A|]. intros Hi. specialize (B Hi).
      destruct (left_next k C) as [[M1 M2]|[M1 M2]]; rewrite M2; lia.
    - assert (exists r, k = d + r /\ 1 <= r < length R) as (r & -> & Hb) by (exists (k - d); lia). split.
      + intros T. apply right_gt in T; [|exact Hb]. destruct T as (v & T & Hv & _). lia.
      + intros _. destruct (right_next r Hb) as [[M1 M2]|[M1 M2]]; rewrite M2; lia.
  Qed.
  Lemma safe_right c : 1 <= c < length R -> 1 <= next (X R c) -> collapse_safe c R = true -> collapse_safe (d + c) G = true.
  Proof.
    intros Hc Hn H. rewrite safe_iff in H by lia. apply safe_iff; [lia|]. intros k Hk Hne. pose proof entry_lt as Hen.
    destruct (right_next c Hc) as [[N1 N2]|[N1 N2]]; [lia|]. rewrite N2.
    destruct (Nat.le_gt_cases k d) as [C|C].
    - split.
      + intros T. apply left_lt in T; [|exact C]. lia.
      + intros _. destruct (left_next k C) as [[M1 M2]|[M1 M2]]; rewrite M2; [|lia]. destruct (H 0 ltac:(lia) ltac:(lia)) as [_ B]. specialize (B (ro_c _ Hr)). lia.
    - assert (exists r, k = d + r /\ 1 <= r < length R) as (r & -> & Hb) by (exists (k - d); lia). destruct (H r ltac:(lia) ltac:(lia)) as [A B].
      rewrite !right_E, right_emp by exact Hb. split; [exact A|]. intros Hi. specialize (B Hi). destruct (right_next r Hb) as [[M1 M2]|[M1 M2]]; rewrite M2; lia.
  Qed.

  Lemma glue_left e c L' G' : e <= d -> c <= d -> e <> c -> c <> 0 -> collapses e c L L' -> collapses e c G G' -> glued (d - 1) L' R G' /\ lok (d - 1) L'.
  Proof.
    intros He Hc Hne H0 CL CG. pose proof (co_len _ _ _ _ CL) as KL. pose proof (co_len _ _ _ _ CG) as KG. pose proof entry_lt as Hen.
    assert (Hrm : forall u, u <= d -> remap e c u <= d - 1) by (intros u Hu; pose proof (remap_lt e c u (S d) Hne ltac:(lia) ltac:(lia) ltac:(lia)); lia).
    assert (Hrs : forall u, d < u -> remap e c u = u - 1) by (intros u Hu; unfold remap; destruct (Nat.ltb_spec u c); [lia|]; destruct (Nat.eqb_spec u c); lia).
    assert (Hr0 : remap e c 0 = 0) by (unfold remap; destruct (Nat.ltb_spec 0 c); lia).
    split; [split|split].
    - lia.
    - exact LR.
    - lia.
    - intros i Hi. destruct (co_at _ _ _ _ CL i ltac:(lia)) as (A1 & A2 & A3). destruct (co_at _ _ _ _ CG i ltac:(lia)) as (B1 & B2 & B3). cbn zeta in *.
      assert (Hk : unslot c i <= d) by (unfold unslot; destruct (i <? c); lia). rewrite A1, A2, B1, B2. set (k := unslot c i) in *.
      assert (Hv : exists v, v <= d /\ (if k =? e then X L c else X L k) = X L v /\ (if k =? e then X G c else X G k) = X G v) by (destruct (k =? e); [exists c|exists k]; auto).
      destruct Hv as (v & Hv & -> & ->). destruct (gl_left _ _ _ _ HG v Hv) as (V1 & _). split; [exact V1|]. split.
      + destruct (left_next v Hv) as [[M1 M2]|[M1 M2]]; rewrite M1 || rewrite M2.
        * rewrite M2, !Hrs by lia. destruct (Nat.eqb_spec (S d - 1) (S (d - 1))); lia.
        * pose proof (Hrm _ M1). destruct (Nat.eqb_spec (remap e c (next (X L v))) (S (d - 1))); [lia|reflexivity].
      + intros t. rewrite A3, B3. split; intros (u & Hu & Ht); exists u; (split; [apply left_E; assumption|exact Ht]).
    - intros r Hb. destruct (co_at _ _ _ _ CG (d - 1 + r) ltac:(lia)) as (B1 & B2 & B3). cbn zeta in *.
      assert (Hk : unslot c (d - 1 + r) = d + r) by (unfold unslot; destruct (Nat.ltb_spec (d - 1 + r) c); lia). rewrite Hk in *.
      replace (d + r =? e) with false in * by (symmetry; apply Nat.eqb_neq; lia). rewrite B1, B2. destruct (gl_right _ _ _ _ HG r Hb) as (V1 & _). split; [exact V1|]. split.
      + destruct (right_next r Hb) as [[M1 M2]|[M1 M2]]; rewrite M2; [rewrite M1; exact Hr0|]. rewrite Hrs by lia. destruct (Nat.eqb_spec (next (X R r)) 0); lia.
      + intros t. rewrite B3. split.
        * intros (u & Hu & <-). apply right_gt in Hu; [|exact Hb]. destruct Hu as (v & -> & Hv & Hu). exists v. rewrite Hrs by lia. split; [lia|exact Hu].
        * intros (v & -> & Hu). pose proof (ro_E _ Hr r v ltac:(lia) Hu). exists (d + v). split; [apply right_E; assumption|]. rewrite Hrs by lia. lia.
    - intros i t Hi Ht. destruct (co_at _ _ _ _ CL i ltac:(lia)) as (_ & _ & A3). apply A3 in Ht. destruct Ht as (u & Hu & <-). apply Hrm.
      eapply (lo_E _ _ Hl); [|exact Hu]. unfold unslot. destruct (i <? c); lia.
    - intros t Ht. destruct (co_at _ _ _ _ CL (S (d - 1)) ltac:(lia)) as (_ & _ & A3). apply A3 in Ht. destruct Ht as (u & Hu & <-).
      replace (unslot c (S (d - 1))) with (S d) in Hu by (unfold unslot; destruct (Nat.ltb_spec (S (d - 1)) c); lia). apply (lo_f _ _ Hl) in Hu. subst u. rewrite Hrs; lia.
  Qed.
  Lemma glue_right e c R' G' : 1 <= e < length R -> 1 <= c < length R -> e <> c -> collapses e c R R' -> collapses (d + e) (d + c) G G' -> glued d L R' G' /\ rok R'.
  Proof.
    intros He Hc Hne CR CG. pose proof (co_len _ _ _ _ CR) as KR. pose proof (co_len _ _ _ _ CG) as KG. pose proof entry_lt as Hen.
    assert (Hsh : forall u, remap (d + e) (d + c) (d + u) = d + remap e c u).
    { intros u. unfold remap. destruct (Nat.ltb_spec (d + u) (d + c)), (Nat.ltb_spec u c); try lia. destruct (Nat.eqb_spec (d + u) (d + c)), (Nat.eqb_spec u c); try lia.
      destruct (Nat.ltb_spec (d + e) (d + c)), (Nat.ltb_spec e c); lia. }
    assert (Hlo : forall u, u <= d -> remap (d + e) (d + c) u = u) by (intros u Hu; unfold remap; destruct (Nat.ltb_spec u (d + c)); lia).
    assert (Hge : forall u, 1 <= u -> 1 <= remap e c u).
    { intros u Hu. unfold remap. destruct (Nat.ltb_spec u c); [lia|]. destruct (Nat.eqb_spec u c); [destruct (Nat.ltb_spec e c); lia|lia]. }
    assert (Hr0 : remap e c 0 = 0) by (unfold remap; destruct (Nat.ltb_spec 0 c); lia).
    destruct (co_at _ _ _ _ CR 0 ltac:(lia)) as (Z1 & Z2 & Z3). cbn zeta in *. replace (unslot c 0) with 0 in * by (unfold unslot; destruct (Nat.ltb_spec 0 c); lia).
    replace (0 =? e) with false in * by (symmetry; apply Nat.eqb_neq; lia).
    split; [split|split].
    - exact LL.
    - lia.
    - lia.
    - intros i Hi. destruct (co_at _ _ _ _ CG i ltac:(lia)) as (B1 & B2 & B3). cbn zeta in *. replace (unslot (d + c) i) with i in * by (unfold unslot; destruct (Nat.ltb_spec i (d + c)); lia).
      replace (i =? d + e) with false in * by (symmetry; apply Nat.eqb_neq; lia). rewrite B1, B2, Z2. destruct (gl_left _ _ _ _ HG i Hi) as (V1 & _). split; [exact V1|]. split.
      + destruct (left_next i Hi) as [[M1 M2]|[M1 M2]]; rewrite M2.
        * rewrite M1, Nat.eqb_refl. apply Hsh.
        * rewrite Hlo by exact M1. destruct (Nat.eqb_spec (next (X L i)) (S d)); [lia|reflexivity].
      + intros t. rewrite B3. split.
        * intros (u & Hu & <-). pose proof (left_lt _ _ Hi Hu). rewrite Hlo by assumption. apply left_E; assumption.
        * intros Ht. exists t. apply left_E in Ht; [|exact Hi]. split; [exact Ht|]. apply Hlo. eapply left_lt; eauto.
    - intros r Hb. rewrite KR in Hb. destruct (co_at _ _ _ _ CR r ltac:(lia)) as (A1 & A2 & A3). destruct (co_at _ _ _ _ CG (d + r) ltac:(lia)) as (B1 & B2 & B3). cbn zeta in *.
      assert (Hu : unslot (d + c) (d + r) = d + unslot c r) by (unfold unslot; destruct (Nat.ltb_spec (d + r) (d + c)), (Nat.ltb_spec r c); lia). rewrite Hu in *.
      assert (Hk : 1 <= unslot c r < length R) by (unfold unslot; destruct (r <? c); lia). set (k := unslot c r) in *. clearbody k.
      replace (d + k =? d + e) with (k =? e) in * by (destruct (Nat.eqb_spec k e), (Nat.eqb_spec (d + k) (d + e)); lia). rewrite A1, A2, B1, B2.
      assert (Hv : exists v, 1 <= v < length R /\ (if k =? e then X R c else X R k) = X R v /\ (if k =? e then X G (d + c) else X G (d + k)) = X G (d + v)) by (destruct (k =? e); [exists c|exists k]; auto).
      destruct Hv as (v & Hv & -> & ->). destruct (gl_right _ _ _ _ HG v Hv) as (V1 & _). split; [exact V1|]. split.
      + destruct (right_next v Hv) as [[M1 M2]|[M1 M2]]; rewrite M2.
        * rewrite M1, Hlo, Hr0 by lia. reflexivity.
        * rewrite Hsh. pose proof (Hge _ (proj1 M1)). destruct (Nat.eqb_spec (remap e c (next (X R v))) 0); lia.
      + intros t. rewrite B3. split.
        * intros (u & Hx & <-). apply right_gt in Hx; [|exact Hk]. destruct Hx as (w & -> & Hw & Hx). exists (remap e c w). rewrite Hsh. split; [reflexivity|]. apply A3. eauto.
        * intros (w & -> & Hx). apply A3 in Hx. destruct Hx as (u & Hx & <-). exists (d + u). split; [apply right_E; assumption|apply Hsh].
    - unfold isemp. rewrite Z1. apply Hr.
    - intros t Ht. apply Z3 in Ht. destruct Ht as (u & Hu & <-). apply (ro_0 _ Hr) in Hu. subst u. exact Hr0.
    - intros r t Hb Ht. assert (Hlt : r < length R') by (eapply E_in; exact Ht). rewrite KR in Hlt. destruct (co_at _ _ _ _ CR r ltac:(lia)) as (_ & _ & A3). apply A3 in Ht.
      destruct Ht as (u & Hu & <-). apply Hge. eapply (ro_E _ Hr); [|exact Hu]. unfold unslot. destruct (r <? c); lia.
    - rewrite Z2. apply Hge. apply Hen.
  Qed.
End pairs.

Lemma collapses_fine st e c st' : fine st -> e < length st -> c < length st -> pairp st e c -> collapse_safe c st = true -> collapses e c st st' -> fine st'.
Proof.
  intros H He Hc P Hs C. destruct (collapses_ok _ st e c H He Hc P Hs) as (st2 & _ & C2 & H2). rewrite (collapses_det _ _ _ _ _ C C2). eapply ok_fine. exact H2.
Qed.
Lemma steps_fine i st st' : steps i st st' -> fine st -> fine st'.
Proof. intros H Hf. eapply ok_fine. eapply steps_loop; eauto. Qed.
Lemma glued_fine d L R G : glued d L R G -> fine L -> fine R -> lok d L -> fine G.
Proof. intros H HL HR Hl. eapply glued_ok; eauto. lia. Qed.

Lemma steps_right r R R' : steps r R R' -> forall d L G, 1 <= r -> glued d L R G -> fine L -> fine R -> lok d L -> rok R ->
  exists G', steps (d + r) G G' /\ glued d L R' G' /\ rok R'.
Proof.
  induction 1 as [r R Hi|r R R' Hi Hfp _ IH|r R e c R1 R' Hi Hfp Hs Hco _ IH]; intros d L G Hb HG HL HR Hl Hr.
  - exists G. split; [apply sp_done; rewrite (gl_G _ _ _ _ HG); lia|auto].
  - destruct (IH d L G ltac:(lia) HG HL HR Hl Hr) as (G' & H1 & H2). exists G'. split; [|exact H2]. apply sp_skip.
    + rewrite (gl_G _ _ _ _ HG). lia.
    + rewrite (fp_right d L R G HG HR Hl Hr r ltac:(lia)), Hfp. reflexivity.
    + rewrite <- Nat.add_succ_r. exact H1.
  - destruct (fp_facts _ _ _ _ Hi Hfp) as (He & Hc & P).
    assert (Hc1 : 1 <= c) by (pose proof (pp_0 _ _ _ P); lia).
    assert (He1 : 1 <= e) by (destruct e; [pose proof (pp_chars _ _ _ P); pose proof (ro_c _ Hr); congruence|lia]).
    pose proof (glued_fine _ _ _ _ HG HL HR Hl) as Hf. pose proof (gl_G _ _ _ _ HG) as LG.
    assert (Hn1 : 1 <= next (X R c)) by (exact (ro_E _ Hr _ _ He1 (pp_to_n _ _ _ P))).
    assert (Hfp' : fp (pairb G) (d + r) (seq 0 (length G)) = Some (d + e, d + c)) by (rewrite (fp_right d L R G HG HR Hl Hr r ltac:(lia)), Hfp; reflexivity).
    assert (Hs' : collapse_safe (d + c) G = true) by (eapply (safe_right d L R G); eauto; lia).
    destruct (fp_facts G (d + r) (d + e) (d + c) ltac:(lia) Hfp') as (He' & Hc' & P').
    destruct (collapses_ok _ G (d + e) (d + c) Hf He' Hc' P' Hs') as (G1 & _ & C1 & _).
    destruct (glue_right d L R G HG HL HR Hl Hr e c R1 G1 ltac:(lia) ltac:(lia) (pairp_ne _ _ _ P) Hco C1) as [HG1 Hr1].
    destruct (IH d L G1 Hb HG1 HL (collapses_fine _ _ _ _ HR He Hc P Hs Hco) Hl Hr1) as (G' & H1 & H2). exists G'. split; [|exact H2].
    eapply sp_merge; [lia|exact Hfp'|exact Hs'|exact C1|exact H1].
Qed.
Lemma steps_left i L L' : steps i L L' -> forall d R R' G, i <= S d -> glued d L R G -> fine L -> fine R -> lok d L -> rok R -> steps 1 R R' ->
  exists d' G', steps i G G' /\ glued d' L' R' G' /\ lok d' L' /\ rok R'.
Proof.
  induction 1 as [i L Hi|i L L' Hi Hfp Hst IH|i L e c L1 L' Hi Hfp Hs Hco _ IH]; intros d R R' G Hb HG HL HR Hl Hr HS; pose proof (gl_L _ _ _ _ HG) as LL; pose proof (gl_R _ _ _ _ HG) as LR; pose proof (gl_G _ _ _ _ HG) as LG.
  - lia.
  - destruct (Nat.eq_dec i (S d)) as [->|Hne].
    + inversion Hst; subst; try lia. destruct (steps_right 1 R R' HS d L' G ltac:(lia) HG HL HR Hl Hr) as (G' & H1 & H2 & H3). exists d, G'. split; [|auto].
      replace (S d) with (d + 1) by lia. exact H1.
    + destruct (IH d R R' G ltac:(lia) HG HL HR Hl Hr HS) as (d' & G' & H1 & H2). exists d', G'. split; [|exact H2]. apply sp_skip; [lia| |exact H1].
      rewrite (fp_left d L R G HG HL HR Hl Hr i ltac:(lia)). exact Hfp.
  - destruct (fp_facts _ _ _ _ Hi Hfp) as (He & Hc & P).
    destruct (pair_fin d L R G HG HL e) as [Q1 _]. destruct (pair_fin d L R G HG HL c) as [_ Q2].
    assert (Hc1 : c <= d) by (destruct (Nat.eq_dec c (S d)) as [->|]; [apply pairb_iff in P; congruence|lia]).
    assert (He1 : e <= d) by (destruct (Nat.eq_dec e (S d)) as [->|]; [apply pairb_iff in P; congruence|lia]).
    assert (Hi1 : i <= d) by (destruct (Nat.eq_dec i (S d)) as [->|]; [rewrite (fp_fin d L R G HG HL) in Hfp; discriminate|lia]).
    pose proof (glued_fine _ _ _ _ HG HL HR Hl) as Hf.
    assert (Hn1 : next (X L c) <= d) by (exact (lo_E _ _ Hl _ _ He1 (pp_to_n _ _ _ P))).
    assert (Hfp' : fp (pairb G) i (seq 0 (length G)) = Some (e, c)) by (rewrite (fp_left d L R G HG HL HR Hl Hr i Hi1); exact Hfp).
    assert (Hs' : collapse_safe c G = true) by (eapply (safe_left d L R G); eauto; apply P).
    destruct (fp_facts G i e c ltac:(lia) Hfp') as (He' & Hc' & P').
    destruct (collapses_ok _ G e c Hf He' Hc' P' Hs') as (G1 & _ & C1 & _).
    destruct (glue_left d L R G HG HL HR Hl Hr e c L1 G1 He1 Hc1 (pairp_ne _ _ _ P) (pp_0 _ _ _ P) Hco C1) as [HG1 Hl1].
    destruct (IH (d - 1) R R' G1 ltac:(pose proof (pp_0 _ _ _ P); lia) HG1 (collapses_fine _ _ _ _ HL He Hc P Hs Hco) HR Hl1 Hr HS) as (d' & G' & H1 & H2). exists d', G'. split; [|exact H2].
    eapply sp_merge; [lia|exact Hfp'|exact Hs'|exact C1|exact H1].
Qed.
Lemma steps_glue d L R G L' R' : glued d L R G -> fine L -> fine R -> lok d L -> rok R -> steps 0 L L' -> steps 0 R R' ->
  exists d' G', steps 0 G G' /\ glued d' L' R' G' /\ lok d' L' /\ rok R'.
Proof.
  intros HG HL HR Hl Hr SL SR. eapply steps_left; [exact SL| |exact HG|assumption..|]; [lia|].
  pose proof (fp_start R Hr) as H0. pose proof (gl_R _ _ _ _ HG). inversion SR; subst; [lia|assumption|congruence].
Qed.
