(** Proofs about the model of words.rs. *)
From Coq Require Import ZArith ZifyBool ZifyNat ZifyN String Sorting Permutation.
From Verif Require Import Base BaseProofs Words Ast.
Open Scope list_scope.
Ltac Zify.zify_post_hook ::= Z.div_mod_to_equations.

Lemma char_of_bound c : char_of c < CHAR_MAX.
Proof.
  unfold char_of, in_range, CHAR_MAX, WORD_END, PUNCTUATION.
  repeat match goal with |- context[if ?b then _ else _] => destruct b eqn:? end; lia.
Qed.

Lemma word_chars_shape u t : exists init,
  word_chars u t = init ++ [WORD_END] /\ Forall (fun c => c < CHAR_MAX) (word_chars u t).
Proof.
  eexists. split; [reflexivity|]. apply Forall_app. split.
  - apply Forall_forall. intros x Hx. apply in_map_iff in Hx. destruct Hx as [c [<- _]]. apply char_of_bound.
  - constructor; [unfold WORD_END, CHAR_MAX; lia|constructor].
Qed.

(** What is assumed of the Unicode tables on ASCII: normalisation leaves ASCII texts alone, no ASCII
    code point is a combining mark, and case mapping is the usual one. *)
Record ascii_ok (u : unicode) : Prop := {
  a_nfkd : forall t, Forall (fun c => c < 128)%N t -> u_nfkd u t = t;
  a_comb : forall c, (c < 128)%N -> u_combining u c = false;
  a_upper : forall c, (c < 128)%N -> u_upper u c = [if is_lower c then (c - 32)%N else c];
  a_lower : forall c, (c < 128)%N -> u_lower u c = [if in_range 65 90 c then (c + 32)%N else c]
}.

Lemma flat_map_single {A B} (f : A -> list B) (g : A -> B) (P : A -> Prop) l :
  Forall P l -> (forall a, P a -> f a = [g a]) -> flat_map f l = map g l.
Proof.
  intros Hl Hf. induction Hl as [|a l Ha Hl IH]; [reflexivity|]. cbn [flat_map map].
  rewrite Hf by exact Ha. rewrite IH. reflexivity.
Qed.

Definition fold_case (c : N) : N := if in_range 65 90 c then (c + 32)%N else c.

Lemma char_of_fold c : char_of (fold_case c) = char_of c.
Proof.
  unfold fold_case. destruct (in_range 65 90 c) eqn:E0; [|reflexivity].
  unfold char_of, in_range in *.
  repeat match goal with |- context[if ?b then _ else _] => destruct b eqn:? end; lia.
Qed.
Lemma char_of_up c : (c < 128)%N ->
  char_of (fold_case (if is_lower c then (c - 32)%N else c)) = char_of c.
Proof.
  intros Hc. rewrite char_of_fold. destruct (is_lower c) eqn:E0; [|reflexivity].
  unfold is_lower, char_of, in_range in *.
  repeat match goal with |- context[if ?b then _ else _] => destruct b eqn:? end; lia.
Qed.

Lemma word_chars_ascii u t : ascii_ok u -> Forall (fun c => c < 128)%N t ->
  word_chars u t = map char_of t ++ [WORD_END].
Proof.
  intros Hu Ht. unfold word_chars. f_equal. rewrite (a_nfkd u Hu) by exact Ht.
  assert (filter (fun c => negb (u_combining u c)) t = t) as ->.
  { induction Ht as [|c t Hc Ht IH]; [reflexivity|]. cbn [filter].
    rewrite (a_comb u Hu) by exact Hc. cbn [negb]. rewrite IH. reflexivity. }
  rewrite (flat_map_single expand_ligature (fun c => c) (fun c => c < 128)%N).
  2: exact Ht.
  2: { intros c Hc. unfold expand_ligature.
       destruct (N.eqb_spec c 230), (N.eqb_spec c 198), (N.eqb_spec c 339), (N.eqb_spec c 338); cbn; try lia; reflexivity. }
  rewrite map_id.
  rewrite (flat_map_single (u_upper u) (fun c => if is_lower c then (c - 32)%N else c) (fun c => c < 128)%N).
  2: exact Ht.
  2: apply (a_upper u Hu).
  rewrite (flat_map_single (u_lower u) fold_case (fun c => c < 128)%N).
  2: { apply Forall_forall. intros x Hx. apply in_map_iff in Hx. destruct Hx as [c [<- Hc]].
       rewrite Forall_forall in Ht. specialize (Ht c Hc). cbn beta in *. destruct (is_lower c); lia. }
  2: apply (a_lower u Hu).
  rewrite !map_map. apply map_ext_Forall. eapply Forall_impl; [|exact Ht].
  cbn beta. intros c Hc. apply char_of_up. exact Hc.
Qed.

(** ** Character sets *)
Lemma charset_of_mem c i : mem (charset_of c) i = (c =? i).
Proof.
  unfold mem, charset_of. rewrite N.shiftl_1_l, N.pow2_bits_eqb.
  destruct (Nat.eqb_spec c i), (N.eqb_spec (N.of_nat c) (N.of_nat i)); lia.
Qed.
Lemma cs_contains_mem x c : cs_contains x c = mem x c.
Proof.
  unfold cs_contains, is_intersecting.
  destruct (N.eqb_spec (N.land x (charset_of c)) 0) as [E|E]; cbn [negb].
  - assert (mem (N.land x (charset_of c)) c = false) as H by (rewrite E; apply mem_0).
    rewrite mem_land, charset_of_mem, Nat.eqb_refl, andb_true_r in H. congruence.
  - apply neq0_mem in E. destruct E as [i Hi]. rewrite mem_land, charset_of_mem in Hi.
    apply andb_true_iff in Hi. destruct Hi as [H1 H2]. apply Nat.eqb_eq in H2. subst. congruence.
Qed.
Lemma is_intersecting_spec x y : is_intersecting x y = true <-> exists i, mem x i = true /\ mem y i = true.
Proof.
  unfold is_intersecting. rewrite negb_true_iff, N.eqb_neq. split.
  - intros H. apply neq0_mem in H. destruct H as [i Hi]. exists i. rewrite mem_land in Hi.
    apply andb_true_iff in Hi. exact Hi.
  - intros [i [Hx Hy]] E. assert (mem (N.land x y) i = false) as H by (rewrite E; apply mem_0).
    rewrite mem_land, Hx, Hy in H. discriminate.
Qed.
Lemma mem_LETTERS i : mem LETTERS i = (i <? 26).
Proof.
  unfold LETTERS. rewrite N.shiftl_1_l. rewrite <- N.pred_sub, <- N.ones_equiv.
  unfold mem. destruct (Nat.ltb_spec i 26).
  - apply N.ones_spec_low. lia.
  - apply N.ones_spec_high. lia.
Qed.
Lemma mem_ALL i : mem ALL i = (i <? 28).
Proof.
  unfold ALL. rewrite N.shiftl_1_l. rewrite <- N.pred_sub, <- N.ones_equiv.
  unfold mem. destruct (Nat.ltb_spec i 28).
  - apply N.ones_spec_low. lia.
  - apply N.ones_spec_high. lia.
Qed.
Lemma mem_lxor x y i : mem (N.lxor x y) i = xorb (mem x i) (mem y i).
Proof. apply N.lxor_spec. Qed.

Lemma range_fold_mem n lo x i : mem (range_fold n lo x) i = true <->
  mem x i = true \/ exists c, (lo <= c < lo + N.of_nat n)%N /\ char_of c = i.
Proof.
  revert lo x. induction n as [|n IH]; intros lo x; cbn [range_fold].
  - split; [auto|]. intros [H|[c [H _]]]; [exact H|lia].
  - rewrite IH. rewrite mem_lor. unfold charset_of_cp. rewrite charset_of_mem. rewrite orb_true_iff, Nat.eqb_eq. split.
    + intros [[H|H]|[c [H1 H2]]]; [auto| |].
      * right. exists lo. split; [lia|exact H].
      * right. exists c. split; [lia|exact H2].
    + intros [H|[c [H1 H2]]]; [auto|]. destruct (N.eq_dec c lo) as [->|].
      * auto.
      * right. exists c. split; [lia|exact H2].
Qed.
Lemma from_range_mem lo hi i : mem (from_range lo hi) i = true <-> exists c, (lo <= c <= hi)%N /\ char_of c = i.
Proof.
  unfold from_range. rewrite range_fold_mem, mem_0. split.
  - intros [H|[c [H1 H2]]]; [discriminate|]. exists c. split; [lia|exact H2].
  - intros [c [H1 H2]]. right. exists c. split; [lia|exact H2].
Qed.

(** A symbol is listed by a class when one of the listed code points is normalised to it. *)
Definition lists (items : list class_item) (s : char) : Prop :=
  exists it, In it items /\
    match it with
    | ItemChar c => char_of c = s
    | ItemRange lo hi => exists c, (lo <= c <= hi)%N /\ char_of c = s
    end.

Lemma class_fold_mem items b s : mem (fold_left (fun b i => cs_union b (class_item_set i)) items b) s = true <->
  mem b s = true \/ lists items s.
Proof.
  revert b. induction items as [|it items IH]; intros b; cbn [fold_left].
  - split; [auto|]. intros [H|[it [[] _]]]. exact H.
  - rewrite IH. unfold cs_union. rewrite mem_lor, orb_true_iff. split.
    + intros [[H|H]|[it' [H1 H2]]]; [auto| |].
      * right. exists it. split; [left; reflexivity|]. destruct it as [c|lo hi]; cbn [class_item_set] in H.
        -- unfold charset_of_cp in H. rewrite charset_of_mem in H. apply Nat.eqb_eq in H. exact H.
        -- apply from_range_mem. exact H.
      * right. exists it'. split; [right; exact H1|exact H2].
    + intros [H|[it' [[<-|H1] H2]]]; [auto| |].
      * left. right. destruct it as [c|lo hi]; cbn [class_item_set].
        -- unfold charset_of_cp. rewrite charset_of_mem. apply Nat.eqb_eq. exact H2.
        -- apply from_range_mem. exact H2.
      * right. exists it'. auto.
Qed.
Lemma class_mem items s : mem (class_charset false items) s = true <-> lists items s.
Proof.
  unfold class_charset. rewrite class_fold_mem. unfold EMPTY. rewrite mem_0. split; [|auto].
  intros [H|H]; [discriminate|exact H].
Qed.
Lemma class_plain items s : cs_contains (class_charset false items) s = true <-> lists items s.
Proof. rewrite cs_contains_mem. apply class_mem. Qed.
Lemma class_inverted items s : cs_contains (class_charset true items) s = true <->
  (s < 26 /\ ~ lists items s) \/ (26 <= s /\ lists items s).
Proof.
  rewrite cs_contains_mem. pose proof (class_mem items s) as H.
  unfold class_charset in *. unfold invert. rewrite mem_lxor, mem_LETTERS.
  set (m := mem _ s) in *. destruct (Nat.ltb_spec s 26); destruct m; cbn [xorb]; split; intros H'.
  all: try discriminate.
  - destruct H' as [[_ H']|[H' _]]; [|lia]. exfalso. apply H'. apply H. reflexivity.
  - left. split; [lia|]. rewrite <- H. discriminate.
  - reflexivity.
  - right. split; [lia|]. apply H. reflexivity.
  - reflexivity.
  - destruct H' as [[H' _]|[_ H']]; [lia|]. apply H in H'. discriminate.
Qed.

(** ** Word order *)
Lemma compare_list_eq {A} (cmp : A -> A -> comparison) :
  (forall a b, cmp a b = Eq <-> a = b) -> forall x y, compare_list cmp x y = Eq <-> x = y.
Proof.
  intros H. induction x as [|a x IH]; intros [|b y]; cbn; split; intros E; try discriminate; auto.
  - destruct (cmp a b) eqn:Ec; try discriminate. apply H in Ec. apply IH in E. congruence.
  - inversion E; subst. assert (cmp b b = Eq) as -> by (apply H; reflexivity). apply IH. reflexivity.
Qed.
Lemma compare_list_antisym {A} (cmp : A -> A -> comparison) :
  (forall a b, cmp b a = CompOpp (cmp a b)) ->
  forall x y, compare_list cmp y x = CompOpp (compare_list cmp x y).
Proof.
  intros Ha. induction x as [|a x IH]; intros [|b y]; cbn; auto.
  rewrite (Ha a b). destruct (cmp a b); cbn; auto.
Qed.
Lemma compare_list_trans {A} (cmp : A -> A -> comparison) :
  (forall a b, cmp a b = Eq <-> a = b) ->
  (forall a b c, cmp a b = Lt -> cmp b c = Lt -> cmp a c = Lt) ->
  forall x y z, compare_list cmp x y = Lt -> compare_list cmp y z = Lt -> compare_list cmp x z = Lt.
Proof.
  intros He Ht. induction x as [|a x IH]; intros [|b y] [|c z] H1 H2; cbn in *; try discriminate; auto.
  destruct (cmp a b) eqn:E1; try discriminate; destruct (cmp b c) eqn:E2; try discriminate.
  - apply He in E1, E2. subst. assert (cmp c c = Eq) as -> by (apply He; reflexivity). eapply IH; eauto.
  - apply He in E1. subst. rewrite E2. reflexivity.
  - apply He in E2. subst. rewrite E1. reflexivity.
  - rewrite (Ht a b c) by assumption. reflexivity.
Qed.

Lemma lex_eq a b : lex a b = Eq <-> a = Eq /\ b = Eq.
Proof. destruct a; cbn; split; intros; try tauto; try discriminate; destruct H; discriminate. Qed.

Lemma word_compare_eq a b : word_compare a b = Eq <-> a = b.
Proof.
  unfold word_compare. rewrite !lex_eq, Nat.compare_eq_iff, N.compare_eq_iff.
  rewrite !compare_list_eq by (intros; first [apply Nat.compare_eq_iff|apply N.compare_eq_iff]).
  destruct a, b; cbn. split.
  - intros [-> [-> [-> ->]]]. reflexivity.
  - intros E; inversion E; auto.
Qed.
Lemma lex_opp a b a' b' : a' = CompOpp a -> b' = CompOpp b -> lex a' b' = CompOpp (lex a b).
Proof. intros -> ->. destruct a; reflexivity. Qed.
Lemma word_compare_antisym a b : word_compare b a = CompOpp (word_compare a b).
Proof.
  unfold word_compare. repeat apply lex_opp.
  - apply Nat.compare_antisym.
  - apply compare_list_antisym. intros. apply Nat.compare_antisym.
  - apply compare_list_antisym. intros. apply N.compare_antisym.
  - apply N.compare_antisym.
Qed.
(** lexicographic transitivity *)
Lemma lex_lt_trans {A} (c1 : A -> A -> comparison) (c2 : A -> A -> comparison) :
  (forall a b c, c1 a b = Eq -> c1 b c = Eq -> c1 a c = Eq) ->
  (forall a b c, c1 a b = Eq -> c1 b c = Lt -> c1 a c = Lt) ->
  (forall a b c, c1 a b = Lt -> c1 b c = Eq -> c1 a c = Lt) ->
  (forall a b c, c1 a b = Lt -> c1 b c = Lt -> c1 a c = Lt) ->
  (forall a b c, c2 a b = Lt -> c2 b c = Lt -> c2 a c = Lt) ->
  forall a b c, lex (c1 a b) (c2 a b) = Lt -> lex (c1 b c) (c2 b c) = Lt -> lex (c1 a c) (c2 a c) = Lt.
Proof.
  intros H1 H2 H3 H4 H5 a b c. destruct (c1 a b) eqn:E1; try discriminate;
    destruct (c1 b c) eqn:E2; try discriminate; cbn; intros Ha Hb.
  - rewrite (H1 a b c) by assumption. cbn. eapply H5; eauto.
  - rewrite (H2 a b c) by assumption. reflexivity.
  - rewrite (H3 a b c) by assumption. reflexivity.
  - rewrite (H4 a b c) by assumption. reflexivity.
Qed.

Lemma word_compare_trans a b c : word_compare a b = Lt -> word_compare b c = Lt -> word_compare a c = Lt.
Proof.
  revert a b c. unfold word_compare.
  apply (lex_lt_trans (fun a b => Nat.compare (w_tranche a) (w_tranche b))).
  1-4: intros a b c; rewrite ?Nat.compare_eq_iff, ?Nat.compare_lt_iff; lia.
  apply (lex_lt_trans (fun a b => compare_list Nat.compare (w_chars a) (w_chars b))).
  - intros a b c. rewrite !compare_list_eq by apply Nat.compare_eq_iff. congruence.
  - intros a b c. rewrite compare_list_eq by apply Nat.compare_eq_iff. intros ->. auto.
  - intros a b c H. rewrite compare_list_eq by apply Nat.compare_eq_iff. intros <-. auto.
  - intros a b c. apply compare_list_trans; [apply Nat.compare_eq_iff|].
    intros x y z. rewrite !Nat.compare_lt_iff. lia.
  - apply (lex_lt_trans (fun a b => compare_list N.compare (w_text a) (w_text b))).
    + intros a b c. rewrite !compare_list_eq by apply N.compare_eq_iff. congruence.
    + intros a b c. rewrite compare_list_eq by apply N.compare_eq_iff. intros ->. auto.
    + intros a b c H. rewrite compare_list_eq by apply N.compare_eq_iff. intros <-. auto.
    + intros a b c. apply compare_list_trans; [apply N.compare_eq_iff|].
      intros x y z. rewrite !N.compare_lt_iff. lia.
    + intros a b c. rewrite !N.compare_lt_iff. lia.
Qed.

Definition word_le (a b : word) : Prop := word_compare a b <> Gt.
Lemma word_leb_le a b : word_leb a b = true <-> word_le a b.
Proof. unfold word_leb, word_le. destruct (word_compare a b); split; congruence. Qed.
Lemma word_le_trans a b c : word_le a b -> word_le b c -> word_le a c.
Proof.
  unfold word_le. destruct (word_compare a b) eqn:E1; try congruence;
    destruct (word_compare b c) eqn:E2; try congruence; intros _ _.
  - apply word_compare_eq in E1, E2. subst. assert (word_compare c c = Eq) by (apply word_compare_eq; reflexivity). congruence.
  - apply word_compare_eq in E1. subst. congruence.
  - apply word_compare_eq in E2. subst. congruence.
  - rewrite (word_compare_trans a b c) by assumption. congruence.
Qed.
Lemma word_le_total a b : word_leb a b = false -> word_le b a.
Proof.
  unfold word_leb, word_le. rewrite (word_compare_antisym a b). destruct (word_compare a b); cbn; congruence.
Qed.
Lemma word_le_tranche a b : word_le a b -> w_tranche a <= w_tranche b.
Proof.
  unfold word_le, word_compare. destruct (Nat.compare_spec (w_tranche a) (w_tranche b)); cbn; [lia|lia|congruence].
Qed.
Lemma word_eqb_eq a b : word_eqb a b = true <-> a = b.
Proof. unfold word_eqb. rewrite <- word_compare_eq. destruct (word_compare a b); split; congruence. Qed.

Lemma insert_sorted_perm a l : Permutation (insert_sorted a l) (a :: l).
Proof.
  induction l as [|b l IH]; cbn [insert_sorted]; [apply Permutation_refl|].
  destruct (word_leb a b); [apply Permutation_refl|].
  rewrite IH. apply perm_swap.
Qed.
Lemma sort_words_perm l : Permutation (sort_words l) l.
Proof.
  induction l as [|a l IH]; [constructor|]. cbn [sort_words fold_right].
  rewrite insert_sorted_perm. constructor. exact IH.
Qed.
Lemma insert_sorted_sorted a l : StronglySorted word_le l -> StronglySorted word_le (insert_sorted a l).
Proof.
  induction l as [|b l IH]; intros Hs; cbn [insert_sorted].
  - repeat constructor.
  - inversion Hs as [|? ? Hs' Hf]; subst. destruct (word_leb a b) eqn:E.
    + constructor; [exact Hs|]. apply word_leb_le in E. constructor; [exact E|].
      eapply Forall_impl; [|exact Hf]. cbn beta. intros x Hx. eapply word_le_trans; eauto.
    + constructor; [apply IH; exact Hs'|]. apply Forall_forall. intros x Hx.
      apply (Permutation_in _ (insert_sorted_perm a l)) in Hx. destruct Hx as [<-|Hx].
      * apply word_le_total. exact E.
      * rewrite Forall_forall in Hf. apply Hf. exact Hx.
Qed.
Lemma sort_words_sorted l : StronglySorted word_le (sort_words l).
Proof.
  induction l as [|a l IH]; [constructor|]. apply insert_sorted_sorted. exact IH.
Qed.

(** ** load_wordlist *)
(** Specification. A line is admissible when its word has more than one symbol besides the word end,
    or is I or a, and contains no digit. *)
Definition admissible (u : unicode) (line : text) : bool :=
  let wt := fst (parse_line line) in
  ((2 <? length (word_chars u wt)) || text_eqb wt (str "I") || text_eqb wt (str "a"))
  && negb (existsb is_digit wt).

(** Batch [i] has [batch_size i + 1] words; [batch_start i] words come before it. *)
Fixpoint batch_size (i : nat) : N :=
  match i with
  | 0 => 10000
  | S i' => (batch_size i' + batch_size i' / 2)%N
  end.
Fixpoint batch_start (i : nat) : N :=
  match i with
  | 0 => 0
  | S i' => (batch_start i' + batch_size i' + 1)%N
  end.

(** The entry for the [k]-th admissible line: [t] is the batch that contains position [k]. *)
Definition entry_for (u : unicode) (k : N) (line : text) (w : word) : Prop :=
  exists t, (batch_start t <= k < batch_start (S t))%N /\
    w_text w = fst (parse_line line) /\ w_score w = snd (parse_line line) /\
    w_chars w = word_chars u (fst (parse_line line)) /\
    w_tranche w = t + (if forallb is_lower (fst (parse_line line)) then 0 else 1).

Inductive entries (u : unicode) : N -> list text -> list word -> Prop :=
| entries_nil k : entries u k [] []
| entries_cons k line lines w ws :
    entry_for u k line w -> entries u (k + 1)%N lines ws -> entries u k (line :: lines) (w :: ws).

Definition load_inv (s : load_state) (k : N) : Prop :=
  ld_size s = batch_size (ld_tranche s) /\ (ld_count s <= ld_size s)%N /\
  k = (batch_start (ld_tranche s) + ld_count s)%N.

Lemma load_line_spec u s k line : load_inv s k ->
  let '(s', w) := load_line u s line in
  if admissible u line
  then exists w', w = Some w' /\ entry_for u k line w' /\ load_inv s' (k + 1)%N
  else w = None /\ s' = s.
Proof.
  intros [Hsz [Hc Hk]]. unfold load_line, admissible.
  destruct (parse_line line) as [wt sc] eqn:Ep. cbn [fst snd].
  cbn [word_new w_chars w_text].
  destruct (Nat.leb_spec (length (word_chars u wt)) 2) as [Hl|Hl];
  destruct (Nat.ltb_spec 2 (length (word_chars u wt))) as [Hl'|Hl']; try lia; cbn [andb orb].
  - destruct (text_eqb wt (str "I")) eqn:EI; [|destruct (text_eqb wt (str "a")) eqn:Ea]; cbn [negb andb orb].
    3: auto.
    all: destruct (existsb is_digit wt) eqn:Ed; cbn [negb]; [auto|].
    all: eexists; split; [reflexivity|]; split;
      [exists (ld_tranche s); rewrite Ep; cbn [fst snd w_text w_score w_chars w_tranche batch_start]; repeat split; auto; lia|].
    all: destruct (N.ltb_spec (ld_size s) (ld_count s + 1)); unfold load_inv; cbn [ld_size ld_count ld_tranche batch_size batch_start]; 
      rewrite <- ?Hsz; repeat split; lia.
  - destruct (existsb is_digit wt) eqn:Ed; cbn [negb]; [auto|].
    eexists; split; [reflexivity|]; split;
      [exists (ld_tranche s); rewrite Ep; cbn [fst snd w_text w_score w_chars w_tranche batch_start]; repeat split; auto; lia|].
    destruct (N.ltb_spec (ld_size s) (ld_count s + 1)); unfold load_inv; cbn [ld_size ld_count ld_tranche batch_size batch_start];
      rewrite <- ?Hsz; repeat split; lia.
Qed.

Lemma load_lines_spec u lines s k : load_inv s k ->
  entries u k (filter (admissible u) lines) (load_lines u s lines).
Proof.
  revert s k. induction lines as [|line lines IH]; intros s k Hi; cbn [load_lines filter].
  - constructor.
  - pose proof (load_line_spec u s k line Hi) as H. destruct (load_line u s line) as [s' w].
    destruct (admissible u line).
    + destruct H as [w' [-> [He Hi']]]. constructor; [exact He|]. apply IH. exact Hi'.
    + destruct H as [-> ->]. apply IH. exact Hi.
Qed.

Lemma load_wordlist_lemma u lines :
  exists ws, entries u 0 (filter (admissible u) lines) ws /\
    Permutation (load_wordlist u lines) ws /\ StronglySorted word_le (load_wordlist u lines).
Proof.
  exists (load_lines u load_init lines). split; [|split].
  - apply load_lines_spec. unfold load_inv. cbn. unfold INITIAL_TRANCHE_SIZE. lia.
  - apply sort_words_perm.
  - apply sort_words_sorted.
Qed.

Lemma char_of_letter c k : k < 26 -> (c = 65 + N.of_nat k \/ c = 97 + N.of_nat k)%N -> char_of c = k.
Proof.
  intros Hk Hc. unfold char_of, in_range.
  repeat match goal with |- context[if ?b then _ else _] => destruct b eqn:? end; lia.
Qed.
Lemma char_of_space c : c = 32%N \/ c = 95%N -> char_of c = 27.
Proof. intros [-> | ->]; reflexivity. Qed.
Lemma char_of_other c : ~ (65 <= c <= 90)%N -> ~ (97 <= c <= 122)%N -> c <> 32%N -> c <> 95%N -> char_of c = 26.
Proof.
  intros H1 H2 H3 H4. unfold char_of, in_range.
  repeat match goal with |- context[if ?b then _ else _] => destruct b eqn:? end; try lia; reflexivity.
Qed.

Lemma word_new_ascii u t tr sc : ascii_ok u -> Forall (fun c => c < 128)%N t ->
  let w := word_new u t tr sc in
  w_tranche w = tr /\ w_text w = t /\ w_score w = sc /\
  length (w_chars w) = S (length t) /\
  nth_error (w_chars w) (length t) = Some 27 /\
  forall i c, nth_error t i = Some c -> exists s, nth_error (w_chars w) i = Some s /\
    (forall k, k < 26 -> (c = 65 + N.of_nat k \/ c = 97 + N.of_nat k)%N -> s = k) /\
    (c = 32%N \/ c = 95%N -> s = 27) /\
    (~ (65 <= c <= 90)%N -> ~ (97 <= c <= 122)%N -> c <> 32%N -> c <> 95%N -> s = 26).
Proof.
  intros Hu Ht w. unfold w, word_new. cbn [w_tranche w_text w_score w_chars].
  rewrite word_chars_ascii by assumption. repeat split; auto.
  - rewrite app_length, map_length. cbn. lia.
  - rewrite nth_error_app2 by (rewrite map_length; lia). rewrite map_length, Nat.sub_diag. reflexivity.
  - intros i c Hi. exists (char_of c). split; [|split; [|split]].
    + rewrite nth_error_app1; [apply map_nth_error; exact Hi|].
      rewrite map_length. apply nth_error_Some. congruence.
    + intros k Hk Hc. apply char_of_letter; assumption.
    + apply char_of_space.
    + apply char_of_other.
Qed.

(** A Unicode table that only knows ASCII, for examples. *)
Definition ascii_unicode : unicode := {|
  u_nfkd := fun t => t;
  u_combining := fun c => in_range 768 879 c;
  u_upper := fun c => [if is_lower c then (c - 32)%N else c];
  u_lower := fun c => [if in_range 65 90 c then (c + 32)%N else c]
|}.
Lemma ascii_unicode_ok : ascii_ok ascii_unicode.
Proof.
  constructor; cbn; auto. intros c Hc. unfold in_range. lia.
Qed.
