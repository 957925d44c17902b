(** What the tree of a written pattern denotes, and which symbols it mentions. *)
From Coq Require Import String.
From Verif Require Export SyntaxProofs3.
Local Open Scope list_scope.

Lemma lists_covers items s : lists (map item_of items) s <-> covers items s.
Proof.
  unfold lists, covers. split.
  - intros (it & Hi & H). apply in_map_iff in Hi. destruct Hi as (i & <- & Hi). exists i. split; [exact Hi|]. destruct i as [c|lo hi]; cbn [item_of item_covers] in *; [auto|]. destruct H as (c & H & E). exists c. auto.
  - intros (i & Hi & H). exists (item_of i). split; [apply in_map; exact Hi|]. destruct i as [c|lo hi]; cbn [item_of item_covers] in *; [auto|]. destruct H as (c & H & E). exists c. auto.
Qed.
Lemma ascii_char c : ascii_letter c -> char_of c < 26.
Proof. intros H. apply letter_char. apply alpha_letter. exact H. Qed.
Lemma letters_cover items s : letters_only items -> covers items s -> s < 26.
Proof.
  intros H (i & Hi & Hs). unfold letters_only in H. rewrite Forall_forall in H. specialize (H i Hi). destruct i as [c|lo hi]; cbn [item_covers] in *; [subst s; apply ascii_char; exact H|]. destruct Hs as (c & Hc & ->). apply ascii_char. apply H. exact Hc.
Qed.

Definition lang_sym (L L' : language) : Prop := forall w, L w <-> L' w.
Lemma sym_le Ls Ls' : Forall2 lang_sym Ls Ls' -> Forall2 lang_le Ls Ls' /\ Forall2 lang_le Ls' Ls.
Proof. induction 1 as [|L L' Ls Ls' H _ [IH1 IH2]]; split; constructor; auto; intros w; apply H. Qed.
Lemma cats_sym Ls Ls' w : Forall2 lang_sym Ls Ls' -> (cats Ls w <-> cats Ls' w).
Proof. intros H. apply sym_le in H. destruct H as [H1 H2]. split; apply cats_le; assumption. Qed.
Lemma alts_sym Ls Ls' w : Forall2 lang_sym Ls Ls' -> ((exists L, In L Ls /\ L w) <-> exists L, In L Ls' /\ L w).
Proof. intros H. apply sym_le in H. destruct H as [H1 H2]. split; apply alts_le; assumption. Qed.
Lemma subs_sym Ls Ls' w : Forall2 lang_sym Ls Ls' -> ((exists pre run post, Ls = pre ++ run ++ post /\ cats run w) <-> exists pre run post, Ls' = pre ++ run ++ post /\ cats run w).
Proof. intros H. apply sym_le in H. destruct H as [H1 H2]. split; apply subs_le; assumption. Qed.
Lemma power_sym L L' n w : lang_sym L L' -> (power L n w <-> power L' n w).
Proof. intros H. split; apply power_le; intros x; apply H. Qed.
Lemma chosen_le Ls Ls' : Forall2 lang_le Ls Ls' -> forall ch, sublist ch Ls -> exists ch', sublist ch' Ls' /\ Forall2 lang_le ch ch'.
Proof.
  induction 1 as [|L L' Ls Ls' H _ IH]; intros ch Hs; inversion Hs as [|? ch1 ? Hs1|? ? ? Hs1]; subst.
  - exists []. split; constructor.
  - destruct (IH _ Hs1) as (ch' & H1 & H2). exists (L' :: ch'). split; constructor; assumption.
  - destruct (IH _ Hs1) as (ch' & H1 & H2). exists ch'. split; [constructor|]; assumption.
Qed.
Lemma chosen_sym Ls Ls' w : Forall2 lang_sym Ls Ls' -> ((exists ch, sublist ch Ls /\ cats ch w) <-> exists ch, sublist ch Ls' /\ cats ch w).
Proof.
  intros H. apply sym_le in H. destruct H as [H1 H2]. split; intros (ch & Hs & Hw).
  - destruct (chosen_le _ _ H1 ch Hs) as (ch' & Hs' & Hc). exists ch'. split; [exact Hs'|]. exact (cats_le _ _ Hc w Hw).
  - destruct (chosen_le _ _ H2 ch Hs) as (ch' & Hs' & Hc). exists ch'. split; [exact Hs'|]. exact (cats_le _ _ Hc w Hw).
Qed.
Lemma gaps_le Ls Ls' : Forall2 lang_le Ls Ls' -> forall w, with_gaps Ls w -> with_gaps Ls' w.
Proof.
  induction 1 as [|L L' Ls Ls' H _ IH]; intros w Hw; [exact Hw|]. destruct Hw as (g & x & r & -> & Hg & Hx & Hr). exists g, x, r. split; [reflexivity|]. split; [exact Hg|]. split; [apply H; exact Hx|apply IH; exact Hr].
Qed.
Lemma gaps_sym Ls Ls' w : Forall2 lang_sym Ls Ls' -> (with_gaps Ls w <-> with_gaps Ls' w).
Proof. intros H. apply sym_le in H. destruct H as [H1 H2]. split; apply gaps_le; assumption. Qed.
Lemma map_sublist {A B} (f : A -> B) l : forall ch, sublist ch (map f l) <-> exists ch', sublist ch' l /\ map f ch' = ch.
Proof.
  induction l as [|a l IH]; intros ch; cbn [map]; split.
  - intros H. inversion H. exists []. split; [constructor|reflexivity].
  - intros (ch' & H & <-). inversion H. constructor.
  - intros H. inversion H as [|? ch1 ? Hs1|? ? ? Hs1]; subst; apply IH in Hs1; destruct Hs1 as (ch' & H1 & <-); [exists (a :: ch')|exists ch']; (split; [constructor; exact H1|reflexivity]).
  - intros (ch' & H & <-). inversion H as [|? ch1 ? Hs1|? ? ? Hs1]; subst; cbn [map]; constructor; apply IH; eauto.
Qed.

Definition exact_tree (p : pat) : Prop :=
  lang_sym (denotes (tree p)) (means p) /\ forall c, 26 <= c < 28 -> (mentions c (tree p) <-> speaks c p).
Lemma exact_parts ps : Forall exact_tree ps -> Forall2 lang_sym (map denotes (map tree ps)) (map means ps).
Proof. induction 1 as [|p ps [H _] _ IH]; constructor; assumption. Qed.
Lemma exact_mentions c ps : 26 <= c < 28 -> Forall exact_tree ps -> ((exists a, In a (map tree ps) /\ mentions c a) <-> exists p, In p ps /\ speaks c p).
Proof.
  intros Hc H. rewrite Forall_forall in H. split.
  - intros (a & Ha & Hm). apply in_map_iff in Ha. destruct Ha as (p & <- & Hp). exists p. split; [exact Hp|]. apply (H p Hp); assumption.
  - intros (p & Hp & Hm). exists (tree p). split; [apply in_map; exact Hp|]. apply (H p Hp); assumption.
Qed.
Lemma letters_power n : forall w, power (denotes (CharClass LETTERS)) n w <-> length w = n /\ Forall letter w.
Proof.
  induction n as [|n IH]; intros w; cbn [power].
  - unfold empty_string. split; [intros ->; split; [reflexivity|constructor]|intros [H _]; destruct w; [reflexivity|discriminate H]].
  - unfold cat. split.
    + intros (x & y & -> & (c & -> & Hc) & Hy). apply IH in Hy. destruct Hy as [<- Hy]. split; [reflexivity|]. constructor; [|exact Hy]. rewrite cs_contains_mem, mem_LETTERS in Hc. apply Nat.ltb_lt in Hc. exact Hc.
    + intros [Hl Hw]. destruct Hw as [|c w Hc Hw]; [discriminate Hl|]. injection Hl as Hl. exists [c], w. split; [reflexivity|]. split; [|apply IH; auto]. exists c. split; [reflexivity|]. rewrite cs_contains_mem, mem_LETTERS. apply Nat.ltb_lt. exact Hc.
Qed.
Lemma letters_silent c : 26 <= c < 28 -> ~ mentions c (CharClass LETTERS).
Proof. intros Hc H. inversion H as [cs Hm| | | | |]; subst. rewrite cs_contains_mem, mem_LETTERS in Hm. apply Nat.ltb_lt in Hm. lia. Qed.
Lemma single_mentions c s : mentions c (CharClass (charset_of s)) <-> c = s.
Proof.
  split; [intros H; inversion H as [cs Hm| | | | |]; subst; rewrite cs_contains_mem, charset_of_mem in Hm; apply Nat.eqb_eq in Hm; congruence|]. intros ->. constructor. rewrite cs_contains_mem, charset_of_mem. apply Nat.eqb_refl.
Qed.
Lemma mentions_sequence c l : mentions c (Sequence l) <-> exists a, In a l /\ mentions c a.
Proof. split; [intros H; inversion H; subst; eauto|intros (a & Ha & H); econstructor; eassumption]. Qed.
Lemma mentions_alternatives c l : mentions c (Alternatives l) <-> exists a, In a l /\ mentions c a.
Proof. split; [intros H; inversion H; subst; eauto|intros (a & Ha & H); econstructor; eassumption]. Qed.
Lemma mentions_repetition c a l m : mentions c (Repetition a l m) <-> mentions c a.
Proof. split; [intros H; inversion H; subst; assumption|intros H; constructor; exact H]. Qed.

Lemma exact_symbol s : exact_tree (Symbol s).
Proof.
  split; [intros w; cbn [tree denotes means]|].
  - split; [intros (c & -> & H); rewrite cs_contains_mem, charset_of_mem in H; apply Nat.eqb_eq in H; congruence|]. intros ->. exists s. split; [reflexivity|]. rewrite cs_contains_mem, charset_of_mem. apply Nat.eqb_refl.
  - intros c _. cbn [tree]. rewrite single_mentions. split; [intros ->; constructor|intros H; inversion H; reflexivity].
Qed.
Lemma exact_dot : exact_tree Dot.
Proof.
  split; [intros w; cbn [tree denotes means]|].
  - split; intros (c & -> & H); exists c; (split; [reflexivity|]); rewrite cs_contains_mem, mem_LETTERS, Nat.ltb_lt in *; exact H.
  - intros c Hc. cbn [tree]. split; [intros H; apply letters_silent in H; [destruct H|exact Hc]|intros H; inversion H].
Qed.
Lemma exact_length n : exact_tree (Length n).
Proof.
  split; [intros w; cbn [tree means]|].
  - change (denotes (Sequence ?l) w) with (cats (map denotes l) w). cbn [map cats fold_right]. unfold cat. split.
    + intros (u & v & -> & (k & Hk & Hm & Hu) & x & y & -> & (c & -> & Hc) & ->). specialize (Hm n eq_refl). assert (k = n) by lia. subst k. rewrite app_nil_r. rewrite cs_contains_mem, charset_of_mem in Hc. apply Nat.eqb_eq in Hc. subst c.
      apply letters_power in Hu. destruct Hu as [Hl Hu]. exists u. auto.
    + intros (u & -> & Hl & Hu). exists u, [WORD_END]. split; [reflexivity|]. split.
      * exists n. split; [lia|]. split; [intros m [= <-]; lia|]. apply letters_power. auto.
      * exists [WORD_END], []. split; [reflexivity|]. split; [|reflexivity]. exists WORD_END. split; [reflexivity|]. rewrite cs_contains_mem, charset_of_mem. apply Nat.eqb_refl.
  - intros c Hc. cbn [tree]. rewrite mentions_sequence. split.
    + intros (a & [<-|[<-|[]]] & H); [apply mentions_repetition in H; apply letters_silent in H; [destruct H|exact Hc]|]. apply single_mentions in H. constructor. exact H.
    + intros H. inversion H; subst. exists (CharClass (charset_of WORD_END)). split; [right; left; reflexivity|]. apply single_mentions. reflexivity.
Qed.
Lemma exact_class items : exact_tree (Class false items).
Proof.
  split; [intros w; cbn [tree denotes means]|].
  - split; intros (c & -> & H); exists c; (split; [reflexivity|]).
    + apply lists_covers. apply class_plain. exact H.
    + apply class_plain. apply lists_covers. exact H.
  - intros c Hc. cbn [tree]. split; intros H; [inversion H as [? Hm| | | | |]; subst; constructor; apply lists_covers; apply class_plain; exact Hm|]. inversion H; subst. constructor. apply class_plain. apply lists_covers. assumption.
Qed.
Lemma exact_negated items : letters_only items -> exact_tree (Class true items).
Proof.
  intros Hl. split; [intros w; cbn [tree denotes means]|].
  - split.
    + intros (c & -> & H). exists c. split; [reflexivity|]. apply class_inverted in H. rewrite lists_covers in H. destruct H as [[H1 H2]|[H1 H2]]; [auto|]. apply letters_cover in H2; [|exact Hl]. lia.
    + intros (c & -> & H1 & H2). exists c. split; [reflexivity|]. apply class_inverted. left. rewrite lists_covers. auto.
  - intros c Hc. cbn [tree]. split; intros H; [|inversion H]. inversion H as [? Hm| | | | |]; subst. exfalso. apply class_inverted in Hm. destruct Hm as [[H1 _]|[_ H2]]; [lia|]. apply lists_covers, letters_cover in H2; [|exact Hl]. lia.
Qed.
Lemma exact_block k b : Forall ascii_letter b -> exact_tree (Block k (map char_of b)).
Proof.
  intros Hb. split; [intros w; reflexivity|]. intros c Hc. cbn [tree]. split; intros H; [|inversion H]. exfalso. inversion H as [| | | | |? ? Hi]; subst. apply in_map_iff in Hi. destruct Hi as (x & <- & Hx). rewrite Forall_forall in Hb. specialize (ascii_char x (Hb x Hx)). lia.
Qed.
Lemma exact_group bs : bs <> [] -> Forall (Forall exact_tree) bs -> exact_tree (Group bs).
Proof.
  intros Hn H. assert (E : forall w, denotes (tree (Group bs)) w <-> exists L, In L (map (fun b => cats (map denotes (map tree b))) bs) /\ L w).
  { intros w. cbn [tree]. destruct bs as [|b [|b' bs]]; [congruence| |].
    - cbn [map branches_ast]. change (denotes (Sequence ?l)) with (cats (map denotes l)). split; [intros Hw; eexists; split; [left; reflexivity|exact Hw]|]. intros (L & [<-|[]] & Hw). exact Hw.
    - cbn [map branches_ast]. change (denotes (Alternatives ?l) w) with (exists L, In L (map denotes l) /\ L w). cbn [map]. change (denotes (Sequence ?l)) with (cats (map denotes l)). rewrite !map_map. reflexivity. }
  split.
  - intros w. rewrite E. cbn [means]. apply alts_sym. clear - H. induction H as [|b bs Hb _ IH]; constructor; [|exact IH]. intros x. apply cats_sym. apply exact_parts. exact Hb.
  - intros c Hc. assert (M : mentions c (tree (Group bs)) <-> exists b, In b bs /\ exists a, In a (map tree b) /\ mentions c a).
    { cbn [tree]. destruct bs as [|b [|b' bs]]; [congruence| |].
      - cbn [map branches_ast]. rewrite mentions_sequence. split; [intros Hm; exists b; split; [left; reflexivity|exact Hm]|intros (x & [<-|[]] & Hm); exact Hm].
      - cbn [map branches_ast]. rewrite mentions_alternatives. split.
        + intros (a & Ha & Hm). change (Sequence (map tree b) :: Sequence (map tree b') :: map Sequence (map (fun b => map tree b) bs)) with (map Sequence (map (fun b => map tree b) (b :: b' :: bs))) in Ha. rewrite map_map in Ha. apply in_map_iff in Ha. destruct Ha as (x & <- & Hx). exists x. split; [exact Hx|]. apply mentions_sequence. exact Hm.
        + intros (x & Hx & Hm). exists (Sequence (map tree x)). split; [|apply mentions_sequence; exact Hm]. change (Sequence (map tree b) :: Sequence (map tree b') :: map Sequence (map (fun b => map tree b) bs)) with (map Sequence (map (fun b => map tree b) (b :: b' :: bs))). rewrite map_map. apply (in_map (fun b => Sequence (map tree b))). exact Hx. }
    rewrite M. rewrite Forall_forall in H. split.
    + intros (b & Hb & Hm). apply (exact_mentions c b Hc (H b Hb)) in Hm. destruct Hm as (p & Hp & Hs). exact (speaks_group c bs b p Hb Hp Hs).
    + intros Hs. inversion Hs as [| | | |? b p Hb Hp Hsp| |]; subst. exists b. split; [exact Hb|]. apply (exact_mentions c b Hc (H b Hb)). eauto.
Qed.
Lemma speaks_operator_iff c o ps : o <> OSuperset -> ((exists p, In p ps /\ speaks c p) <-> speaks c (Operator o ps)).
Proof. intros Ho. split; [intros (p & Hp & H); exact (speaks_operator c o ps p Hp H)|intros H; inversion H; subst; [congruence|eauto]]. Qed.
Lemma exact_operator o ps : Forall exact_tree ps -> exact_tree (Operator o ps).
Proof.
  intros H. pose proof (exact_parts ps H) as HL. split.
  - intros w. destruct o; cbn [tree op_rule operator_ast means].
    + change (denotes (Substring ?l) w) with (exists pre run post, map denotes l = pre ++ run ++ post /\ cats run w). apply subs_sym. exact HL.
    + rewrite subset_language. rewrite <- (chosen_sym _ _ w HL). split.
      * intros (ch & Hs & Hw). exists (map denotes ch). split; [apply map_sublist; eauto|exact Hw].
      * intros (ch & Hs & Hw). apply map_sublist in Hs. destruct Hs as (ch' & Hs & <-). eauto.
    + rewrite superset_language. apply gaps_sym. exact HL.
  - intros c Hc. destruct o; cbn [tree op_rule operator_ast].
    + rewrite <- (speaks_operator_iff c OSubstring ps) by discriminate. rewrite <- (exact_mentions c ps Hc H). split; [intros Hm; inversion Hm; subst; eauto|intros (a & Ha & Hm); econstructor; eassumption].
    + rewrite <- (speaks_operator_iff c OSubset ps) by discriminate. rewrite <- (exact_mentions c ps Hc H). rewrite mentions_sequence. split.
      * intros (a & Ha & Hm). apply in_map_iff in Ha. destruct Ha as (x & <- & Hx). apply mentions_repetition in Hm. eauto.
      * intros (a & Ha & Hm). exists (Repetition a 0 (Some 1)). split; [apply (in_map (fun c => Repetition c 0 (Some 1))); exact Ha|apply mentions_repetition; exact Hm].
    + split; [intros _; constructor|]. intros _. apply mentions_sequence. exists any_many. split; [apply in_or_app; right; left; reflexivity|]. unfold any_many. apply mentions_repetition. constructor. rewrite cs_contains_mem, mem_ALL. apply Nat.ltb_lt. lia.
Qed.
Lemma exact_repeated p l m : exact_tree p -> exact_tree (Repeated p l m).
Proof.
  intros [H1 H2]. split.
  - intros w. cbn [tree denotes means]. split; intros (n & Hl & Hm & Hp); exists n; (split; [exact Hl|]; split; [exact Hm|]); apply (power_sym _ _ n w H1); exact Hp.
  - intros c Hc. cbn [tree]. rewrite mentions_repetition, (H2 c Hc). split; [intros H; constructor; exact H|intros H; inversion H; assumption].
Qed.
Lemma written_exact : (forall p t, writes p t -> exact_tree p) /\ (forall ps t, writes_parts ps t -> Forall exact_tree ps) /\ (forall bs t, writes_branches bs t -> bs <> [] /\ Forall (Forall exact_tree) bs).
Proof.
  apply writes_all.
  - intros c _. apply exact_symbol.
  - apply exact_dot.
  - intros d n _. apply exact_length.
  - intros items ts _ _. apply exact_class.
  - intros items ts _ _ H. apply exact_negated. exact H.
  - intros k b t Hb _ _. apply exact_block. exact Hb.
  - intros bs sp t _ _ [Hn H]. apply exact_group; assumption.
  - intros o ps sp t _ _ H _. apply exact_operator. exact H.
  - intros p t sp l m t' _ H _ _ _. apply exact_repeated. exact H.
  - intros p t sp _ H _. constructor; [exact H|constructor].
  - intros p t sp ps t' _ H _ _ _ Hs. constructor; assumption.
  - intros ps t _ H. split; [discriminate|]. constructor; [exact H|constructor].
  - intros ps t sp bs t' _ H _ _ [_ Hb]. split; [discriminate|]. constructor; assumption.
Qed.
