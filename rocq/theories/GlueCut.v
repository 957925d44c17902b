(** Cutting a pattern at a class: the automata before optimisation. *)
From Verif Require Export GlueBuild.

Lemma seq_app ovf l1 l2 st : build_states ovf (Sequence (l1 ++ l2)) st = do s <- build_states ovf (Sequence l1) st; build_states ovf (Sequence l2) s.
Proof.
  cbn [build_states]. revert st. induction l1 as [|a l1 IH]; intros st; cbn [app foldM]; [reflexivity|].
  destruct (build_states ovf a st) as [s| | |]; cbn [bind]; auto.
Qed.
Lemma width_app l1 l2 : width (Sequence (l1 ++ l2)) = width (Sequence l1) + width (Sequence l2).
Proof. cbn [width]. rewrite map_app, list_sum_app. reflexivity. Qed.
Lemma wf_app l1 l2 : well_formed (Sequence (l1 ++ l2)) = well_formed (Sequence l1) && well_formed (Sequence l2).
Proof. cbn [well_formed]. apply forallb_app. Qed.

Lemma cut_glued ovf l1 c l2 L R G : c <> EMPTY ->
  build_all ovf (Sequence (l1 ++ [CharClass c])) = Ok L -> build_all ovf (Sequence (CharClass c :: l2)) = Ok R ->
  build_all ovf (Sequence (l1 ++ CharClass c :: l2)) = Ok G -> exists q, glued q L R G /\ lok q L /\ rok R.
Proof.
  intros Hc HL HR HG. unfold build_all in *.
  apply bind_Ok in HL. destruct HL as (a & HL & EL). injection EL as <-.
  apply bind_Ok in HR. destruct HR as (r & HR & ER). injection ER as <-.
  apply bind_Ok in HG. destruct HG as (g & HG & EG). injection EG as <-.
  rewrite seq_app in HL. apply bind_Ok in HL. destruct HL as (s1 & H1 & HL). cbn [build_states foldM bind] in HL. injection HL as <-.
  rewrite seq_app, H1 in HG. cbn [bind] in HG.
  change (CharClass c :: l2) with ([CharClass c] ++ l2) in HR, HG. rewrite seq_app in HR, HG. cbn [build_states foldM bind length app] in HR, HG.
  pose proof (build_rel (length s1) 1 [new_transition c 1] (s1 ++ [new_transition c (length s1 + 1)]) ovf (Sequence l2) (le_n _) eq_refl ltac:(rewrite app_length; reflexivity)
    [new_transition c 1] (s1 ++ [new_transition c (length s1 + 1)]) r g) as Hr.
  destruct Hr as (l & -> & -> & Hl); [|exact HR|exact HG|].
  { exists []. rewrite !app_nil_r. split; [reflexivity|]. split; [reflexivity|constructor]. }
  set (q := length s1) in *. set (fin := charset_of WORD_END).
  assert (Hn : nexts s1) by (eapply build_grows; [exact H1|constructor]).
  assert (XL : forall i, i < q -> X ((s1 ++ [new_transition c (q + 1)]) ++ [new_transition fin (length (s1 ++ [new_transition c (q + 1)]))]) i = X s1 i).
  { intros i Hi. rewrite <- app_assoc. apply X_app1. exact Hi. }
  assert (XLq : X ((s1 ++ [new_transition c (q + 1)]) ++ [new_transition fin (length (s1 ++ [new_transition c (q + 1)]))]) q = new_transition c (q + 1)).
  { rewrite <- app_assoc. unfold X. rewrite app_nth2 by (fold q; lia). fold q. rewrite Nat.sub_diag. reflexivity. }
  assert (XG : forall i, i < q -> X (((s1 ++ [new_transition c (q + 1)]) ++ map (sh q) l) ++ [new_transition fin (length ((s1 ++ [new_transition c (q + 1)]) ++ map (sh q) l))]) i = X s1 i).
  { intros i Hi. rewrite <- !app_assoc. apply X_app1. exact Hi. }
  assert (XGq : X (((s1 ++ [new_transition c (q + 1)]) ++ map (sh q) l) ++ [new_transition fin (length ((s1 ++ [new_transition c (q + 1)]) ++ map (sh q) l))]) q = new_transition c (q + 1)).
  { rewrite <- !app_assoc. unfold X. rewrite app_nth2 by (fold q; lia). fold q. rewrite Nat.sub_diag. reflexivity. }
  assert (XR : forall k, k < length l -> X (([new_transition c 1] ++ l) ++ [new_transition fin (length ([new_transition c 1] ++ l))]) (S k) = X l k).
  { intros k Hk. unfold X. cbn [app nth]. rewrite app_nth1 by exact Hk. reflexivity. }
  assert (XRf : X (([new_transition c 1] ++ l) ++ [new_transition fin (length ([new_transition c 1] ++ l))]) (S (length l)) = new_transition fin (S (length l))).
  { unfold X. cbn [app nth length]. rewrite app_nth2, Nat.sub_diag by lia. reflexivity. }
  assert (XGr : forall k, k < length l -> X (((s1 ++ [new_transition c (q + 1)]) ++ map (sh q) l) ++ [new_transition fin (length ((s1 ++ [new_transition c (q + 1)]) ++ map (sh q) l))]) (q + S k) = sh q (X l k)).
  { intros k Hk. unfold X. rewrite app_nth1 by (rewrite !app_length, map_length; cbn [length]; fold q; lia). rewrite app_nth2 by (rewrite app_length; cbn [length]; fold q; lia).
    rewrite app_length. cbn [length]. fold q. replace (q + S k - (q + 1)) with k by lia. rewrite (nth_indep _ _ (sh q state_new)) by (rewrite map_length; exact Hk). apply map_nth. }
  assert (XGf : X (((s1 ++ [new_transition c (q + 1)]) ++ map (sh q) l) ++ [new_transition fin (length ((s1 ++ [new_transition c (q + 1)]) ++ map (sh q) l))]) (q + S (length l)) = new_transition fin (q + S (length l))).
  { unfold X. rewrite app_nth2 by (rewrite !app_length, map_length; cbn [length]; fold q; lia). rewrite !app_length, map_length. cbn [length]. fold q.
    replace (q + S (length l) - (q + 1 + length l)) with 0 by lia. cbn [nth]. f_equal. lia. }
  assert (E0 : forall cs n t, mem (eps (new_transition cs n)) t = true -> False).
  { intros cs n t Ht. cbn [new_transition eps] in Ht. rewrite mem_0 in Ht. discriminate. }
  set (L := (s1 ++ [new_transition c (q + 1)]) ++ [new_transition fin (length (s1 ++ [new_transition c (q + 1)]))]) in *.
  set (R := ([new_transition c 1] ++ l) ++ [new_transition fin (length ([new_transition c 1] ++ l))]) in *.
  set (G := ((s1 ++ [new_transition c (q + 1)]) ++ map (sh q) l) ++ [new_transition fin (length ((s1 ++ [new_transition c (q + 1)]) ++ map (sh q) l))]) in *.
  assert (X0 : X R 0 = new_transition c 1) by reflexivity.
  assert (LL : length L = S (S q)) by (unfold L; rewrite !app_length; cbn [length]; fold q; lia).
  assert (LR : length R = S (S (length l))) by (unfold R; rewrite !app_length; cbn [length]; lia).
  assert (LG : length G = q + S (S (length l))) by (unfold G; rewrite !app_length, map_length; cbn [length]; fold q; lia).
  exists q. split; [|split].
  - split; [exact LL|lia|lia| |].
    + intros i Hi. rewrite X0. unfold E. destruct (Nat.eq_dec i q) as [->|Hne].
      * rewrite XGq, XLq. cbn [new_transition chars next]. split; [reflexivity|]. split; [|reflexivity]. destruct (Nat.eqb_spec (q + 1) (S q)); lia.
      * rewrite XG, XL by lia. split; [reflexivity|]. split; [|reflexivity]. cbn [new_transition next]. destruct (Nat.eqb_spec (next (X s1 i)) (S q)); lia.
    + intros k Hk. unfold E. destruct k as [|k]; [lia|]. destruct (Nat.eq_dec k (length l)) as [->|Hne].
      * rewrite XGf, XRf. cbn [new_transition chars next]. split; [reflexivity|]. split; [reflexivity|]. intros t. split; [intros Ht; destruct (E0 _ _ _ Ht)|intros (v & _ & Ht); destruct (E0 _ _ _ Ht)].
      * rewrite XGr, XR by lia. cbn [sh chars next eps]. split; [reflexivity|]. split; [reflexivity|]. intros t. rewrite mem_shl, andb_true_iff, Nat.leb_le. split.
        -- intros [Ht Hm]. exists (t - q). split; [lia|exact Hm].
        -- intros (v & -> & Hm). split; [lia|]. replace (q + v - q) with v by lia. exact Hm.
  - split.
    + intros i t Hi Ht. unfold E in Ht. destruct (Nat.eq_dec i q) as [->|Hne].
      * rewrite XLq in Ht. destruct (E0 _ _ _ Ht).
      * rewrite XL in Ht by lia. unfold nexts in Hn. rewrite Forall_forall in Hn. assert (Hi' : i < length s1) by (fold q; lia).
        apply (Hn (X s1 i)); [|exact Ht]. apply nth_In. exact Hi'.
    + intros t Ht. unfold E in Ht. replace (X L (S q)) with (new_transition fin (q + 1)) in Ht; [destruct (E0 _ _ _ Ht)|].
      unfold X, L. rewrite app_nth2 by (rewrite app_length; cbn [length]; fold q; lia). rewrite app_length. cbn [length]. fold q. replace (S q - (q + 1)) with 0 by lia. reflexivity.
  - split.
    + unfold isemp. rewrite X0. apply N.eqb_neq. exact Hc.
    + intros t Ht. unfold E in Ht. rewrite X0 in Ht. destruct (E0 _ _ _ Ht).
    + intros k t Hk Ht. pose proof (E_in _ _ _ Ht) as Hlt. rewrite LR in Hlt. destruct k as [|k]; [lia|]. unfold E in Ht. destruct (Nat.eq_dec k (length l)) as [->|Hne].
      * rewrite XRf in Ht. destruct (E0 _ _ _ Ht).
      * rewrite XR in Ht by lia. rewrite Forall_forall in Hl. apply (Hl (X l k)); [|exact Ht]. apply nth_In. lia.
    + rewrite X0. cbn [new_transition next]. lia.
Qed.

Definition harmless (ovf : bool) (l : list ast) : Prop := forall st, build_all ovf (Sequence l) = Ok st -> optimize_safe st = true.
Lemma cut_safe ovf l1 c l2 : c <> EMPTY -> well_formed (Sequence (l1 ++ CharClass c :: l2)) = true ->
  width (Sequence (l1 ++ CharClass c :: l2)) < MAX_SET_SIZE ->
  harmless ovf (l1 ++ [CharClass c]) -> harmless ovf (CharClass c :: l2) -> harmless ovf (l1 ++ CharClass c :: l2).
Proof.
  intros Hc Hwf Hw H1 H2 G HG.
  assert (W1 : well_formed (Sequence (l1 ++ [CharClass c])) = true /\ width (Sequence (l1 ++ [CharClass c])) < MAX_SET_SIZE).
  { change (CharClass c :: l2) with ([CharClass c] ++ l2) in Hwf, Hw. rewrite app_assoc in Hwf, Hw. rewrite wf_app in Hwf. rewrite width_app in Hw. apply andb_true_iff in Hwf. split; [apply Hwf|lia]. }
  assert (W2 : well_formed (Sequence (CharClass c :: l2)) = true /\ width (Sequence (CharClass c :: l2)) < MAX_SET_SIZE).
  { rewrite wf_app in Hwf. rewrite width_app in Hw. apply andb_true_iff in Hwf. split; [apply Hwf|lia]. }
  destruct (build_nfa ovf _ (proj1 W1) (proj2 W1)) as (L & BL & NL & _ & _). destruct (build_nfa ovf _ (proj1 W2) (proj2 W2)) as (R & BR & NR & _ & _).
  destruct (build_nfa ovf _ Hwf Hw) as (G' & BG & NG & LG & _). rewrite HG in BG. injection BG as <-.
  destruct (cut_glued ovf l1 c l2 L R G Hc BL BR HG) as (q & Hg & Hl & Hr).
  eapply glue_safe; [exact Hg|exact NL|exact NR|exact Hl|exact Hr|apply NG|exact NL|exact NR|apply H1; exact BL|apply H2; exact BR].
Qed.
