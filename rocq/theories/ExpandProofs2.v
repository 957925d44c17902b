(** Expanding whole expressions; detecting options. *)
From Verif Require Export ExpandProofs ExpandSpec.
From Coq Require Import Permutation.

(** ** The two descriptions of a block *)
Lemma anagram_same k bank w : anagram_of k bank w <-> anagram_language k bank w.
Proof.
  destruct k as [| | |n|n]; cbn [anagram_of anagram_language].
  - rewrite <- occ_perm. split; intros H c; symmetry; apply H.
  - split.
    + intros (extra & H & Hl). split; [|exact Hl]. intros c. apply occ_perm with (c := c) in H. rewrite occ_app in H. lia.
    + intros [H Hl]. apply sub_multiset in H. destruct H as (extra & H). exists extra. split; [symmetry; exact H|exact Hl].
  - symmetry. apply sub_multiset.
  - split.
    + intros (extra & H & Hl & Hn). split; [|split; [exact Hl|]].
      * intros c. apply occ_perm with (c := c) in H. rewrite occ_app in H. lia.
      * apply Permutation_length in H. rewrite app_length in H. lia.
    + intros (H & Hl & Hn). apply sub_multiset in H. destruct H as (extra & H). exists extra. split; [symmetry; exact H|]. split; [exact Hl|].
      apply Permutation_length in H. rewrite app_length in H. lia.
  - split.
    + intros (rest & H & Hn). split; [apply sub_multiset; eauto|]. apply Permutation_length in H. rewrite app_length in H. lia.
    + intros [H Hn]. apply sub_multiset in H. destruct H as (rest & H). exists rest. split; [exact H|]. apply Permutation_length in H. rewrite app_length in H. lia.
Qed.
Definition lang_eq (L1 L2 : language) : Prop := forall w, L1 w <-> L2 w.
Definition lang_le (L1 L2 : language) : Prop := forall w, L1 w -> L2 w.
Lemma cats_le Ls Ls' : Forall2 lang_le Ls Ls' -> lang_le (cats Ls) (cats Ls').
Proof.
  induction 1 as [|L L' Ls Ls' H _ IH]; intros w Hw; [exact Hw|]. destruct Hw as (u & v & -> & Hu & Hv). exists u, v. split; [reflexivity|]. split; [apply H; exact Hu|apply IH; exact Hv].
Qed.
Lemma power_le L L' n : lang_le L L' -> lang_le (power L n) (power L' n).
Proof. intros H. induction n as [|n IH]; intros w Hw; [exact Hw|]. destruct Hw as (u & v & -> & Hu & Hv). exists u, v. split; [reflexivity|]. split; [apply H; exact Hu|apply IH; exact Hv]. Qed.
Lemma alts_le Ls Ls' w : Forall2 lang_le Ls Ls' -> (exists L, In L Ls /\ L w) -> exists L, In L Ls' /\ L w.
Proof.
  induction 1 as [|L L' Ls Ls' H _ IH]; intros (M & HM & Hw); [destruct HM|]. destruct HM as [->|HM]; [exists L'; split; [left; reflexivity|apply H; exact Hw]|].
  destruct IH as (M' & HM' & Hw'); [eauto|]. exists M'. split; [right; exact HM'|exact Hw'].
Qed.
Lemma Forall2_app_split {A B} (R : A -> B -> Prop) l1 : forall l2 l', Forall2 R (l1 ++ l2) l' -> exists l1' l2', l' = l1' ++ l2' /\ Forall2 R l1 l1' /\ Forall2 R l2 l2'.
Proof.
  induction l1 as [|a l1 IH]; intros l2 l' H; [exists [], l'; split; [reflexivity|]; split; [constructor|exact H]|]. inversion H as [|? b ? l'' Hab Hrest]; subst.
  destruct (IH _ _ Hrest) as (l1' & l2' & -> & H1 & H2). exists (b :: l1'), l2'. split; [reflexivity|]. split; [constructor; auto|exact H2].
Qed.
Lemma subs_le Ls Ls' w : Forall2 lang_le Ls Ls' -> (exists pre run post, Ls = pre ++ run ++ post /\ cats run w) -> exists pre run post, Ls' = pre ++ run ++ post /\ cats run w.
Proof.
  intros H (pre & run & post & -> & Hw). apply Forall2_app_split in H. destruct H as (p' & rp' & -> & _ & H). apply Forall2_app_split in H. destruct H as (r' & q' & -> & Hr & _).
  exists p', r', q'. split; [reflexivity|]. exact (cats_le _ _ Hr w Hw).
Qed.
Lemma Forall2_map {A} (f g : A -> language) l : Forall (fun a => lang_le (f a) (g a)) l -> Forall2 lang_le (map f l) (map g l).
Proof. induction 1; constructor; auto. Qed.
Lemma denotes_le_both a : lang_le (denotes a) (matches a) /\ lang_le (matches a) (denotes a).
Proof.
  induction a as [cs|l IH|l IH|l IH|t mn mx IH|k b] using ast_ind'; cbn [denotes matches].
  - split; intros w H; exact H.
  - assert (H1 : Forall (fun a => lang_le (denotes a) (matches a)) l) by (eapply Forall_impl; [|exact IH]; intros a H; apply H).
    assert (H2 : Forall (fun a => lang_le (matches a) (denotes a)) l) by (eapply Forall_impl; [|exact IH]; intros a H; apply H).
    split; intros w; apply alts_le; apply Forall2_map; assumption.
  - assert (H1 : Forall (fun a => lang_le (denotes a) (matches a)) l) by (eapply Forall_impl; [|exact IH]; intros a H; apply H).
    assert (H2 : Forall (fun a => lang_le (matches a) (denotes a)) l) by (eapply Forall_impl; [|exact IH]; intros a H; apply H).
    split; apply cats_le; apply Forall2_map; assumption.
  - assert (H1 : Forall (fun a => lang_le (denotes a) (matches a)) l) by (eapply Forall_impl; [|exact IH]; intros a H; apply H).
    assert (H2 : Forall (fun a => lang_le (matches a) (denotes a)) l) by (eapply Forall_impl; [|exact IH]; intros a H; apply H).
    split; intros w; apply subs_le; apply Forall2_map; assumption.
  - destruct IH as [IH1 IH2]. split; intros w (n & H1 & H2 & H3); exists n; (split; [exact H1|split; [exact H2|]]); eapply power_le; eauto.
  - split; intros w; apply anagram_same.
Qed.
Lemma denotes_matches a w : denotes a w <-> matches a w.
Proof. destruct (denotes_le_both a) as [H1 H2]. split; [apply H1|apply H2]. Qed.

(** ** Replacing *)
Definition each_replaced := fix each (l : list ast) (rs : list ast) : outcome (list ast * list ast) :=
    match l with
    | [] => Ok ([], rs)
    | x :: l' => do (x', rs1) <- replaced rs x; do (l'', rs2) <- each l' rs1; Ok (x' :: l'', rs2)
    end.
Definition good_part (p : anagram_kind * list char) (r : ast) : Prop := (forall w, anagram_language (fst p) (snd p) w -> matches r w) /\ has_block r = false.
Lemma replaced_spec : forall a rs1, Forall2 good_part (visited a) rs1 -> exists a', (forall rs2, replaced (rs1 ++ rs2) a = Ok (a', rs2)) /\
  lang_le (matches a) (matches a') /\ has_block a' = has_repeated_block a.
Proof.
  assert (Hl : forall l, Forall (fun a => forall rs1, Forall2 good_part (visited a) rs1 -> exists a', (forall rs2, replaced (rs1 ++ rs2) a = Ok (a', rs2)) /\
      lang_le (matches a) (matches a') /\ has_block a' = has_repeated_block a) l ->
    forall rs1, Forall2 good_part (flat_map visited l) rs1 -> exists l', (forall rs2, each_replaced l (rs1 ++ rs2) = Ok (l', rs2)) /\
      Forall2 lang_le (map matches l) (map matches l') /\ existsb has_block l' = existsb has_repeated_block l).
  { induction 1 as [|a l Ha _ IH]; intros rs1 H.
    - inversion H; subst. exists []. repeat split. constructor.
    - cbn [flat_map] in H. apply Forall2_app_split in H. destruct H as (r1 & r2 & -> & H1 & H2). destruct (Ha _ H1) as (a' & A1 & A2 & A3). destruct (IH _ H2) as (l' & L1 & L2 & L3).
      exists (a' :: l'). split; [|split].
      + intros rs2. cbn [each_replaced]. rewrite <- app_assoc, A1. cbn [bind]. fold each_replaced. rewrite L1. reflexivity.
      + cbn [map]. constructor; auto.
      + cbn [existsb]. rewrite A3, L3. reflexivity. }
  induction a as [cs|l IH|l IH|l IH|t mn mx IH|k b] using ast_ind'; intros rs1 H; cbn [visited] in H.
  - inversion H; subst. exists (CharClass cs). repeat split. intros w Hw. exact Hw.
  - destruct (Hl l IH _ H) as (l' & L1 & L2 & L3). exists (Alternatives l'). split; [|split].
    + intros rs2. cbn [replaced]. fold each_replaced. rewrite L1. reflexivity.
    + intros w. cbn [matches]. apply alts_le. exact L2.
    + exact L3.
  - destruct (Hl l IH _ H) as (l' & L1 & L2 & L3). exists (Sequence l'). split; [|split].
    + intros rs2. cbn [replaced]. fold each_replaced. rewrite L1. reflexivity.
    + cbn [matches]. apply cats_le. exact L2.
    + exact L3.
  - destruct (Hl l IH _ H) as (l' & L1 & L2 & L3). exists (Substring l'). split; [|split].
    + intros rs2. cbn [replaced]. fold each_replaced. rewrite L1. reflexivity.
    + intros w. cbn [matches]. apply subs_le. exact L2.
    + exact L3.
  - inversion H; subst. exists (Repetition t mn mx). repeat split. intros w Hw. exact Hw.
  - inversion H as [|p r ? ? [Hr1 Hr2] H']; subst. inversion H'; subst. exists r. split; [reflexivity|]. split; [exact Hr1|]. exact Hr2.
Qed.
Lemma letter_no_block k s ch n : has_block (letter_constraint k s ch n) = false.
Proof.
  unfold letter_constraint, spaced. cbn [has_block]. rewrite existsb_app, flat_map_const. cbn [existsb orb].
  assert (H : forall f x, has_block f = false -> has_block x = false -> existsb has_block (concat (repeat [f; x] n)) = false).
  { intros f x Hf Hx. induction n as [|m IH]; [reflexivity|]. cbn [repeat concat app existsb]. rewrite Hf, Hx. exact IH. }
  destruct k; rewrite H by reflexivity; reflexivity.
Qed.
Lemma part_no_block k bank i : has_block (part k bank i) = false.
Proof. unfold part, ast_for_anagram. destruct (nth_error (histogram bank) i) as [[ch n]|]; [apply letter_no_block|]. destruct k; reflexivity. Qed.

Lemma banks_visited : forall a, banks_ok a = true -> Forall (fun p => symbols (snd p)) (visited a).
Proof.
  assert (Hl : forall l, Forall (fun a => banks_ok a = true -> Forall (fun p : anagram_kind * list char => symbols (snd p)) (visited a)) l ->
    forallb banks_ok l = true -> Forall (fun p : anagram_kind * list char => symbols (snd p)) (flat_map visited l)).
  { induction 1 as [|a l Ha _ IH]; intros H; [constructor|]. cbn [forallb] in H. apply andb_true_iff in H. cbn [flat_map]. apply Forall_app. split; [apply Ha, H|apply IH, H]. }
  induction a as [cs|l IH|l IH|l IH|t mn mx IH|k b] using ast_ind'; cbn [banks_ok visited]; intros H; auto.
  constructor; [|constructor]. cbn [snd]. unfold symbols. apply Forall_forall. intros c Hc. rewrite forallb_forall in H. apply Nat.ltb_lt, H, Hc.
Qed.
Definition parts_at (a : ast) (i : nat) : list ast := map (fun p => part (fst p) (snd p) i) (visited a).
Lemma parts_good a i : banks_ok a = true -> Forall2 good_part (visited a) (parts_at a i).
Proof.
  intros H. apply banks_visited in H. unfold parts_at. induction H as [|p l Hp _ IH]; [constructor|]. cbn [map]. constructor; [|exact IH].
  split; [intros w; apply part_sound; exact Hp|apply part_no_block].
Qed.
Definition count_parts (a : ast) : nat := max_unique (map (fun p => histogram (snd p)) (visited a)).

Lemma mapM_all {A B} (g : A -> outcome B) (R : A -> B -> Prop) l : (forall a, In a l -> exists b, g a = Ok b /\ R a b) -> exists bs, mapM g l = Ok bs /\ Forall2 R l bs.
Proof.
  induction l as [|a l IH]; intros H; [exists []; split; [reflexivity|constructor]|]. destruct (H a (or_introl eq_refl)) as (b & Eb & Hb). destruct IH as (bs & E & Hbs); [intros x Hx; apply H; right; exact Hx|].
  exists (b :: bs). cbn [mapM]. rewrite Eb. cbn [bind]. rewrite E. split; [reflexivity|constructor; auto].
Qed.
Definition ith_expansion (e : expr_ast) (i : nat) (e' : expr_ast) : Prop :=
  options e' = options e /\ (forall rs2, replaced (parts_at (root e) i ++ rs2) (root e) = Ok (root e', rs2)) /\
  lang_le (matches (root e)) (matches (root e')) /\ has_block (root e') = has_repeated_block (root e).
Lemma expand_one e : banks_ok (root e) = true -> exists es, expand_expression e = Ok es /\ Forall2 (ith_expansion e) (seq 0 (count_parts (root e) + 1)) es.
Proof.
  intros Hb. unfold expand_expression. rewrite map_map. cbn [snd]. fold (count_parts (root e)). apply mapM_all. intros i _.
  rewrite map_map. cbn [fst snd]. change (map (fun x => ast_for_anagram (fst x) (histogram (snd x)) i) (visited (root e))) with (parts_at (root e) i).
  destruct (replaced_spec (root e) _ (parts_good (root e) i Hb)) as (a' & E & H1 & H2). pose proof (E []) as E0. rewrite app_nil_r in E0. rewrite E0. cbn [bind].
  eexists. split; [reflexivity|]. split; [reflexivity|]. split; [exact E|]. split; [exact H1|exact H2].
Qed.
Lemma expand_single e es : banks_ok (root e) = true -> expand_expressions [e] = Ok es -> Forall2 (ith_expansion e) (seq 0 (count_parts (root e) + 1)) es.
Proof.
  intros Hb. unfold expand_expressions. cbn [mapM]. destruct (expand_one e Hb) as (es' & E & H). rewrite E. cbn [bind concat]. rewrite app_nil_r. intros [= <-]. exact H.
Qed.
Lemma expand_all es : Forall (fun e => banks_ok (root e) = true) es -> exists ess, expand_expressions es = Ok (concat ess) /\ Forall2 (fun e es' => expand_expressions [e] = Ok es') es ess.
Proof.
  intros H. unfold expand_expressions at 1. destruct (mapM_all expand_expression (fun e es' => expand_expressions [e] = Ok es') es) as (ess & E & HF).
  - intros e He. rewrite Forall_forall in H. destruct (expand_one e (H e He)) as (es' & E & _). exists es'. split; [exact E|]. unfold expand_expressions. cbn [mapM]. rewrite E. cbn [bind concat]. rewrite app_nil_r. reflexivity.
  - exists ess. rewrite E. split; [reflexivity|exact HF].
Qed.
Lemma Forall2_snd {A B} (R : A -> B -> Prop) (P : B -> Prop) l l' : (forall a b, R a b -> P b) -> Forall2 R l l' -> Forall P l'.
Proof. intros H. induction 1; constructor; eauto. Qed.
Lemma Forall2_nth {A B} (R : A -> B -> Prop) l l' : Forall2 R l l' -> forall i a, nth_error l i = Some a -> exists b, nth_error l' i = Some b /\ R a b.
Proof. induction 1 as [|a b l l' H _ IH]; intros i x Hi; [destruct i; discriminate|]. destruct i as [|i]; [injection Hi as <-; exists b; auto|]. exact (IH i x Hi). Qed.

(** ** A block between parts of fixed length *)
Definition fixed_length (L : language) (n : nat) : Prop := forall w, L w -> length w = n.
Lemma replaced_none : forall a, visited a = [] -> forall rs, replaced rs a = Ok (a, rs).
Proof.
  assert (Hl : forall l, Forall (fun a => visited a = [] -> forall rs, replaced rs a = Ok (a, rs)) l -> flat_map visited l = [] -> forall rs, each_replaced l rs = Ok (l, rs)).
  { induction 1 as [|a l Ha _ IH]; intros H rs; [reflexivity|]. cbn [flat_map] in H. apply app_eq_nil in H. destruct H as [H1 H2]. cbn [each_replaced]. rewrite (Ha H1). cbn [bind]. fold each_replaced. rewrite (IH H2). reflexivity. }
  induction a as [cs|l IH|l IH|l IH|t mn mx IH|k b] using ast_ind'; intros H rs; cbn [visited] in H; try discriminate; try reflexivity;
    cbn [replaced]; fold each_replaced; rewrite (Hl l IH H); reflexivity.
Qed.
Lemma each_app l1 l2 rs : each_replaced (l1 ++ l2) rs = do (l1', rs1) <- each_replaced l1 rs; do (l2', rs2) <- each_replaced l2 rs1; Ok (l1' ++ l2', rs2).
Proof.
  revert rs. induction l1 as [|a l1 IH]; intros rs; cbn [app each_replaced bind].
  - fold each_replaced. destruct (each_replaced l2 rs) as [[? ?]| | |]; reflexivity.
  - fold each_replaced. destruct (replaced rs a) as [[a' r1]| | |]; cbn [bind]; try reflexivity. rewrite IH. destruct (each_replaced l1 r1) as [[? r2]| | |]; cbn [bind]; try reflexivity.
    destruct (each_replaced l2 r2) as [[? ?]| | |]; reflexivity.
Qed.
Lemma each_none l rs : flat_map visited l = [] -> each_replaced l rs = Ok (l, rs).
Proof.
  revert rs. induction l as [|a l IH]; intros rs H; [reflexivity|]. cbn [flat_map] in H. apply app_eq_nil in H. destruct H as [H1 H2]. cbn [each_replaced]. rewrite (replaced_none a H1). cbn [bind]. fold each_replaced. rewrite (IH rs H2). reflexivity.
Qed.
Lemma cats_app Ls Ls' w : cats (Ls ++ Ls') w <-> exists u v, w = u ++ v /\ cats Ls u /\ cats Ls' v.
Proof.
  revert w. induction Ls as [|L Ls IH]; intros w; cbn [app cats fold_right].
  - split; [intros H; exists [], w; repeat split; exact H|]. intros (u & v & -> & Hu & Hv). unfold empty_string in Hu. subst u. exact Hv.
  - fold (cats Ls) (cats (Ls ++ Ls')). split.
    + intros (u & v & -> & Hu & Hv). apply IH in Hv. destruct Hv as (v1 & v2 & -> & H1 & H2). exists (u ++ v1), v2. rewrite app_assoc. split; [reflexivity|]. split; [exists u, v1; auto|exact H2].
    + intros (u & v & -> & (u1 & u2 & -> & H1 & H2) & Hv). exists u1, (u2 ++ v). rewrite app_assoc. split; [reflexivity|]. split; [exact H1|]. apply IH. exists u2, v. auto.
Qed.
Lemma seq_block pre x post w : matches (Sequence (pre ++ x :: post)) w <->
  exists u y v, w = u ++ y ++ v /\ cats (map matches pre) u /\ matches x y /\ cats (map matches post) v.
Proof.
  cbn [matches]. rewrite map_app, cats_app. cbn [map cats fold_right]. fold (cats (map matches post)). split.
  - intros (u & v & -> & Hu & y & v' & -> & Hy & Hv). exists u, y, v'. auto.
  - intros (u & y & v & -> & Hu & Hy & Hv). exists u, (y ++ v). split; [reflexivity|]. split; [exact Hu|]. exists y, v. auto.
Qed.
Lemma app_inj_length {A} (u v u' v' : list A) : u ++ v = u' ++ v' -> length u = length u' -> u = u' /\ v = v'.
Proof.
  revert u'. induction u as [|a u IH]; intros [|b u'] E H; cbn in *; try discriminate; [auto|]. injection E as -> E. destruct (IH u' E) as [-> ->]; [lia|]. auto.
Qed.
Lemma fixed_split (u y v u' y' v' : list char) : u ++ y ++ v = u' ++ y' ++ v' -> length u = length u' -> length v = length v' -> u = u' /\ y = y' /\ v = v'.
Proof.
  intros E H1 H2. apply app_inj_length in E; [|exact H1]. destruct E as [-> E]. assert (length y = length y') by (apply (f_equal (@length _)) in E; rewrite !app_length in E; lia).
  apply app_inj_length in E; [|assumption]. destruct E as [-> ->]. auto.
Qed.
Lemma seq_at n : forall a i, i < n -> nth_error (seq a n) i = Some (a + i).
Proof. induction n as [|n IH]; intros a i H; [lia|]. destruct i as [|i]; cbn [seq nth_error]; [f_equal; lia|]. rewrite IH by lia. f_equal. lia. Qed.
Lemma block_exact o k bank pre post n m es w :
  symbols bank -> flat_map visited pre = [] -> flat_map visited post = [] ->
  forallb banks_ok pre = true -> forallb banks_ok post = true ->
  fixed_length (cats (map matches pre)) n -> fixed_length (cats (map matches post)) m ->
  expand_expressions [mkExprAst (Sequence (pre ++ Anagram k bank :: post)) o] = Ok es ->
  Forall (fun e' => matches (root e') w) es -> matches (Sequence (pre ++ Anagram k bank :: post)) w.
Proof.
  intros Hb Hpre Hpost Bpre Bpost Fpre Fpost E Hw. set (e := mkExprAst (Sequence (pre ++ Anagram k bank :: post)) o) in *.
  assert (Hv : visited (root e) = [(k, bank)]).
  { cbn [e root visited]. rewrite flat_map_app. cbn [flat_map visited]. rewrite Hpre, Hpost. reflexivity. }
  assert (Hok : banks_ok (root e) = true).
  { cbn [e root banks_ok]. rewrite forallb_app. cbn [forallb banks_ok]. rewrite Bpre, Bpost. rewrite andb_true_r. cbn [andb]. apply forallb_forall. intros c Hc. unfold symbols in Hb. rewrite Forall_forall in Hb. apply Nat.ltb_lt, Hb, Hc. }
  pose proof (expand_single e es Hok E) as HF.
  assert (Hlen : count_parts (root e) = length (histogram bank)).
  { unfold count_parts. rewrite Hv. cbn [map snd]. unfold max_unique. cbn [map fold_right]. apply Nat.max_0_r. }
  rewrite Hlen in HF.
  assert (Hi : forall i, i <= length (histogram bank) -> exists u y v, w = u ++ y ++ v /\ cats (map matches pre) u /\ matches (part k bank i) y /\ cats (map matches post) v).
  { intros i Hi. destruct (Forall2_nth _ _ _ HF i i) as (e' & He' & (_ & Hr & _)); [rewrite seq_at by lia; reflexivity|].
    assert (Hm : matches (root e') w) by (rewrite Forall_forall in Hw; apply Hw; eapply nth_error_In; eauto).
    specialize (Hr []). unfold parts_at in Hr. rewrite Hv in Hr. cbn [map fst snd app e root replaced] in Hr. fold each_replaced in Hr. rewrite each_app, (each_none pre _ Hpre) in Hr. cbn [bind each_replaced replaced] in Hr. fold each_replaced in Hr.
    rewrite (each_none post _ Hpost) in Hr. cbn [bind] in Hr. injection Hr as Hr. rewrite <- Hr in Hm. apply seq_block in Hm. exact Hm. }
  destruct (Hi 0 (Nat.le_0_l _)) as (u & y & v & -> & Hu & _ & Hv'). apply seq_block. exists u, y, v. split; [reflexivity|]. split; [exact Hu|]. split; [|exact Hv'].
  apply (parts_exact k bank y Hb). intros i Hil. destruct (Hi i Hil) as (u' & y' & v'' & E' & Hu' & Hy' & Hv2).
  apply fixed_split in E'; [|rewrite (Fpre _ Hu), (Fpre _ Hu'); reflexivity|rewrite (Fpost _ Hv'), (Fpost _ Hv2); reflexivity]. destruct E' as (_ & -> & _). exact Hy'.
Qed.

(** ** Options *)
Definition each_option := fix each (l : list ast) (o : expr_options) : expr_options :=
  match l with [] => o | x :: l' => each l' (detect_options x o) end.
Lemma mentions_list c l : (exists a, In a l /\ mentions c a) <-> Exists (mentions c) l.
Proof. symmetry. apply Exists_exists. Qed.
Definition noted (a : ast) (o o' : expr_options) : Prop :=
  (explicit_word_boundaries o' = Some true <-> explicit_word_boundaries o = Some true \/ mentions WORD_END a) /\
  (explicit_punctuation o' = Some true <-> explicit_punctuation o = Some true \/ mentions PUNCTUATION a) /\ opt_fuzz o' = opt_fuzz o.
Lemma note_spec has o : let o' := note_symbols has o in
  (explicit_word_boundaries o' = Some true <-> explicit_word_boundaries o = Some true \/ has WORD_END = true) /\
  (explicit_punctuation o' = Some true <-> explicit_punctuation o = Some true \/ has PUNCTUATION = true) /\ opt_fuzz o' = opt_fuzz o.
Proof.
  unfold note_symbols. cbn zeta. destruct (has WORD_END), (has PUNCTUATION); cbn; repeat split; auto; try (intros [H|H]; [exact H|discriminate]).
Qed.
Lemma detect_spec : forall a o, noted a o (detect_options a o).
Proof.
  assert (Hl : forall l, Forall (fun a => forall o, noted a o (detect_options a o)) l -> forall o,
    (explicit_word_boundaries (each_option l o) = Some true <-> explicit_word_boundaries o = Some true \/ exists a, In a l /\ mentions WORD_END a) /\
    (explicit_punctuation (each_option l o) = Some true <-> explicit_punctuation o = Some true \/ exists a, In a l /\ mentions PUNCTUATION a) /\ opt_fuzz (each_option l o) = opt_fuzz o).
  { induction 1 as [|a l Ha _ IH]; intros o; cbn [each_option]; fold each_option.
    - split; [|split; [|reflexivity]]; (split; [auto|intros [H|(a & [] & _)]; exact H]).
    - destruct (Ha o) as (A1 & A2 & A3). destruct (IH (detect_options a o)) as (I1 & I2 & I3). split; [|split; [|congruence]].
      + rewrite I1, A1. split.
        * intros [[H|H]|(b & Hb & H)]; [auto|right; exists a; split; [left; reflexivity|exact H]|right; exists b; split; [right; exact Hb|exact H]].
        * intros [H|(b & [<-|Hb] & H)]; [auto|auto|right; exists b; auto].
      + rewrite I2, A2. split.
        * intros [[H|H]|(b & Hb & H)]; [auto|right; exists a; split; [left; reflexivity|exact H]|right; exists b; split; [right; exact Hb|exact H]].
        * intros [H|(b & [<-|Hb] & H)]; [auto|auto|right; exists b; auto]. }
  induction a as [cs|l IH|l IH|l IH|t mn mx IH|k b] using ast_ind'; intros o; unfold noted; cbn [detect_options]; fold each_option.
  - destruct (note_spec (cs_contains cs) o) as (H1 & H2 & H3). rewrite H1, H2, H3.
    split; [|split; [|reflexivity]]; (split; (intros [H|H]; [auto|right]); [constructor; exact H|inversion H; assumption]).
  - destruct (Hl l IH o) as (H1 & H2 & H3). rewrite H1, H2, H3.
    split; [|split; [|reflexivity]]; (split; (intros [H|H]; [auto|right]); [destruct H as (a & Ha & H); econstructor; eauto|inversion H; eauto]).
  - destruct (Hl l IH o) as (H1 & H2 & H3). rewrite H1, H2, H3.
    split; [|split; [|reflexivity]]; (split; (intros [H|H]; [auto|right]); [destruct H as (a & Ha & H); econstructor; eauto|inversion H; eauto]).
  - destruct (Hl l IH o) as (H1 & H2 & H3). rewrite H1, H2, H3.
    split; [|split; [|reflexivity]]; (split; (intros [H|H]; [auto|right]); [destruct H as (a & Ha & H); econstructor; eauto|inversion H; eauto]).
  - destruct (IH o) as (H1 & H2 & H3). rewrite H1, H2, H3.
    split; [|split; [|reflexivity]]; (split; (intros [H|H]; [auto|right]); [constructor; exact H|inversion H; assumption]).
  - destruct (note_spec (fun c => existsb (Nat.eqb c) b) o) as (H1 & H2 & H3). rewrite H1, H2, H3.
    assert (He : forall c, existsb (Nat.eqb c) b = true <-> In c b).
    { intros c. rewrite existsb_exists. split; [intros (x & Hx & E); apply Nat.eqb_eq in E; subst; exact Hx|intros H; exists c; rewrite Nat.eqb_refl; auto]. }
    rewrite !He. split; [|split; [|reflexivity]]; (split; (intros [H|H]; [auto|right]); [constructor; exact H|inversion H; assumption]).
Qed.
Lemma no_block a : has_block a = false -> visited a = [] /\ banks_ok a = true.
Proof.
  revert a. assert (Hl : forall l, Forall (fun a => has_block a = false -> visited a = [] /\ banks_ok a = true) l -> existsb has_block l = false -> flat_map visited l = [] /\ forallb banks_ok l = true).
  { induction 1 as [|a l Ha _ IH]; intros H; [auto|]. cbn [existsb] in H. apply orb_false_iff in H. destruct (Ha (proj1 H)) as [V A]. destruct (IH (proj2 H)) as [V' A']. cbn [flat_map forallb]. rewrite V, V', A, A'. auto. }
  induction a as [cs|l IH|l IH|l IH|t mn mx IH|k b] using ast_ind'; cbn [has_block visited]; intros H; auto; try discriminate; try (exact (Hl l IH H)).
  split; [reflexivity|]. cbn [banks_ok]. apply IH. exact H.
Qed.
Lemma no_block_list l : Forall (fun a => has_block a = false) l -> flat_map visited l = [] /\ forallb banks_ok l = true.
Proof.
  induction 1 as [|a l H _ IH]; [auto|]. destruct (no_block a H) as [H1 H2]. destruct IH as [H3 H4]. cbn [flat_map forallb]. rewrite H1, H2, H3, H4. auto.
Qed.
