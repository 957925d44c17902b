(** Languages of query texts made of letters. *)
From Coq Require Import String Permutation.
From Verif Require Export DictProofs TotalProofs ExpandProofs2.
Local Open Scope list_scope.

Definition symbols_of (p : text) : list char := map char_of p.
Lemma letter_denotes c w : denotes (letter_class c) w <-> w = [char_of c].
Proof.
  cbn [denotes letter_class]. split.
  - intros (k & -> & Hk). rewrite cs_contains_mem, charset_of_mem in Hk. apply Nat.eqb_eq in Hk. subst k. reflexivity.
  - intros ->. exists (char_of c). split; [reflexivity|]. rewrite cs_contains_mem, charset_of_mem. apply Nat.eqb_refl.
Qed.
Lemma letters_language p : forall w, cats (map denotes (map letter_class p)) w <-> w = symbols_of p.
Proof.
  induction p as [|c p IH]; intros w; [reflexivity|]. change (cat (denotes (letter_class c)) (cats (map denotes (map letter_class p))) w <-> w = char_of c :: symbols_of p). split.
  - intros (x & y & -> & Hx & Hy). apply letter_denotes in Hx. apply IH in Hy. subst. reflexivity.
  - intros ->. exists [char_of c], (symbols_of p). split; [reflexivity|]. split; [apply letter_denotes; reflexivity|apply IH; reflexivity].
Qed.
Lemma sublist_map {A B} (f : A -> B) l l' : sublist l l' -> sublist (map f l) (map f l').
Proof. induction 1; constructor; assumption. Qed.
Lemma sublist_unmap {A B} (f : A -> B) l' : forall l, sublist l (map f l') -> exists k, sublist k l' /\ map f k = l.
Proof.
  induction l' as [|a l' IH]; intros l H; cbn [map] in H; inversion H as [|b x y H'|b x y H']; subst.
  - exists []. split; constructor.
  - destruct (IH _ H') as (k & Hk & <-). exists (a :: k). split; [constructor; exact Hk|reflexivity].
  - destruct (IH _ H') as (k & Hk & <-). exists k. split; [constructor; exact Hk|reflexivity].
Qed.
Lemma sublist_skip {A} (g : list A) l l' : sublist l l' -> sublist l (g ++ l').
Proof. intros H. induction g; [exact H|]. constructor. exact IHg. Qed.
Lemma sublist_none {A} (l : list A) : sublist [] l.
Proof. induction l; constructor; assumption. Qed.
Lemma gaps_letters p : forall w, with_gaps (map denotes (map letter_class p)) w <-> sublist (symbols_of p) w /\ Forall (fun c => c < CHAR_MAX) w.
Proof.
  induction p as [|c p IH]; intros w; cbn [map with_gaps].
  - split; [intros H; split; [apply sublist_none|exact H]|intros [_ H]; exact H].
  - change (symbols_of (c :: p)) with (char_of c :: symbols_of p). split.
    + intros (g & x & r & -> & Hg & Hx & Hr). apply letter_denotes in Hx. subst x. apply IH in Hr. destruct Hr as [H1 H2]. split; [apply sublist_skip; constructor; exact H1|].
      apply Forall_app. split; [exact Hg|]. constructor; [apply char_of_small|exact H2].
    + intros [Hs Ha]. revert Ha. remember (char_of c :: symbols_of p) as l eqn:El. induction Hs as [|a l w Hs IHs|a l w Hs IHs]; intros Ha; [discriminate El| |].
      * injection El as -> ->. inversion Ha; subst. exists [], [char_of c], w. split; [reflexivity|]. split; [constructor|]. split; [apply letter_denotes; reflexivity|apply IH; split; assumption].
      * inversion Ha; subst. destruct (IHs eq_refl) as (g & x & r & -> & Hg & H3 & H4); [assumption|]. exists (a :: g), x, r. split; [reflexivity|]. split; [constructor; assumption|]. auto.
Qed.
Lemma single_denotes a w : denotes (Sequence [a]) w <-> denotes a w.
Proof.
  cbn [denotes map cats fold_right]. unfold cat, empty_string. split.
  - intros (x & y & -> & Hx & ->). rewrite app_nil_r. exact Hx.
  - intros H. exists w, []. rewrite app_nil_r. auto.
Qed.
Lemma map_app_inv {A B} (f : A -> B) l : forall a b, map f l = a ++ b -> exists x y, l = x ++ y /\ map f x = a /\ map f y = b.
Proof.
  induction l as [|z l IH]; intros a b E; cbn [map] in E.
  - symmetry in E. apply app_eq_nil in E. destruct E as [-> ->]. exists [], []. auto.
  - destruct a as [|a0 a]; cbn [app] in E; [exists [], (z :: l); auto|]. injection E as <- E. destruct (IH _ _ E) as (x & y & -> & <- & <-). exists (z :: x), y. auto.
Qed.
Lemma subset_letters p w : denotes (Sequence [operator_ast r_subset (map letter_class p)]) w <-> sublist w (symbols_of p).
Proof.
  rewrite single_denotes. cbn [operator_ast]. rewrite subset_language. split.
  - intros (ch & Hs & Hc). apply sublist_unmap in Hs. destruct Hs as (k & Hk & <-). apply letters_language in Hc. subst w. apply sublist_map. exact Hk.
  - intros H. apply sublist_unmap in H. destruct H as (k & Hk & <-). exists (map letter_class k). split; [apply sublist_map; exact Hk|apply letters_language; reflexivity].
Qed.
Lemma superset_letters p w : denotes (Sequence [operator_ast r_superset (map letter_class p)]) w <-> sublist (symbols_of p) w /\ Forall (fun c => c < CHAR_MAX) w.
Proof. rewrite single_denotes. cbn [operator_ast]. rewrite superset_language. apply gaps_letters. Qed.
Lemma substring_letters p w : denotes (Sequence [operator_ast substring (map letter_class p)]) w <-> exists before after, symbols_of p = before ++ w ++ after.
Proof.
  rewrite single_denotes. cbn [operator_ast]. rewrite substring_language. split.
  - intros (a & b & c & E & H). apply map_app_inv in E. destruct E as (x & y & -> & <- & E). apply map_app_inv in E. destruct E as (y1 & y2 & -> & <- & <-). apply letters_language in H. subst w. exists (symbols_of x), (symbols_of y2). unfold symbols_of. rewrite !map_app. reflexivity.
  - intros (a & c & E). unfold symbols_of in E. apply map_app_inv in E. destruct E as (x & y & -> & <- & E). apply map_app_inv in E. destruct E as (y1 & y2 & -> & <- & <-). exists (map letter_class x), (map letter_class y1), (map letter_class y2). rewrite !map_app. split; [reflexivity|]. apply letters_language. reflexivity.
Qed.
(** options *)
Lemma optional_options p : letters p -> forall o, detect_options (Sequence (map (fun c => Repetition c 0 (Some 1)) (map letter_class p))) o = o.
Proof. induction 1 as [|c p H _ IH]; intros o; [reflexivity|]. change (detect_options (Sequence (map (fun c => Repetition c 0 (Some 1)) (map letter_class p))) (detect_options (letter_class c) o) = o). rewrite letter_options by exact H. apply IH. Qed.
Lemma substring_options p : letters p -> forall o, detect_options (Substring (map letter_class p)) o = o.
Proof. induction 1 as [|c p H _ IH]; intros o; [reflexivity|]. change (detect_options (Substring (map letter_class p)) (detect_options (letter_class c) o) = o). rewrite letter_options by exact H. apply IH. Qed.
Definition both_options : expr_options := mkExprOptions (Some true) (Some true) None.
Lemma any_many_options : detect_options any_many no_options = both_options.
Proof. reflexivity. Qed.
Lemma superset_options p : letters p -> detect_options (Sequence (flat_map (fun c => [any_many; c]) (map letter_class p) ++ [any_many])) no_options = both_options.
Proof.
  intros Hp. destruct Hp as [|c p Hc Hp]; [reflexivity|].
  assert (G : forall p, letters p -> detect_options (Sequence (flat_map (fun c => [any_many; c]) (map letter_class p) ++ [any_many])) both_options = both_options).
  { clear. induction 1 as [|c p H _ IH]; [reflexivity|]. change (detect_options (Sequence (flat_map (fun c => [any_many; c]) (map letter_class p) ++ [any_many])) (detect_options (letter_class c) (detect_options any_many both_options)) = both_options). rewrite letter_options by exact H. exact IH. }
  change (detect_options (Sequence (flat_map (fun c => [any_many; c]) (map letter_class p) ++ [any_many])) (detect_options (letter_class c) (detect_options any_many no_options)) = both_options). rewrite letter_options by exact Hc. rewrite any_many_options. apply G. exact Hp.
Qed.
Lemma single_options a o : detect_options (Sequence [a]) o = detect_options a o.
Proof. reflexivity. Qed.
Lemma bank_options k p o : letters p -> detect_options (Sequence [Anagram k (symbols_of p)]) o = o.
Proof.
  intros H. rewrite single_options. cbn [detect_options]. unfold note_symbols.
  assert (G : forall x, 26 <= x -> existsb (Nat.eqb x) (symbols_of p) = false).
  { intros x Hx. induction H as [|c p Hc _ IH]; [reflexivity|]. cbn [symbols_of map existsb]. apply letter_char in Hc. destruct (Nat.eqb_spec x (char_of c)); [lia|]. exact IH. }
  rewrite !G by (unfold WORD_END, PUNCTUATION; lia). reflexivity.
Qed.
Lemma bank_small p : Forall (fun c => c < CHAR_MAX) (symbols_of p).
Proof. apply Forall_forall. intros c Hc. apply in_map_iff in Hc. destruct Hc as (x & <- & _). apply char_of_small. Qed.
Lemma word_denotes p w : denotes (root (word_expr p)) w <-> w = symbols_of p.
Proof. apply letters_language. Qed.

(** ** Lines and white space *)
Lemma split_count t : length (split_lines t) = line_count t.
Proof.
  unfold line_count. induction t as [|c t IH]; [reflexivity|]. cbn [split_lines filter]. destruct (N.eqb c 10 || N.eqb c 59); cbn [length]; rewrite <- ?IH; [reflexivity|].
  destruct (split_lines t) as [|l ls]; [discriminate IH|reflexivity].
Qed.
Lemma trim_start_spec t : exists a, t = a ++ trim_start t /\ Forall (fun c => is_white c = true) a /\ forall c y, trim_start t = c :: y -> is_white c = false.
Proof.
  induction t as [|c t (a & E & H1 & H2)]; [exists []; split; [reflexivity|]; split; [constructor|discriminate]|]. cbn [trim_start]. destruct (is_white c) eqn:Ec.
  - exists (c :: a). split; [cbn; rewrite <- E; reflexivity|]. split; [constructor; assumption|exact H2].
  - exists []. split; [reflexivity|]. split; [constructor|]. intros c' y [= <- _]. exact Ec.
Qed.
Lemma trim_spec t : trimmed t (trim t).
Proof.
  unfold trim. destruct (trim_start_spec t) as (a & E & H1 & H2). destruct (trim_start_spec (rev (trim_start t))) as (b & E' & H3 & H4).
  set (x := trim_start (rev (trim_start t))) in *. assert (Ex : trim_start t = rev x ++ rev b) by (rewrite <- rev_app_distr, <- E', rev_involutive; reflexivity).
  exists a, (rev b). split; [rewrite <- Ex; exact E|]. split; [apply Forall_app; split; [exact H1|apply Forall_rev; exact H3]|].
  intros c y [Hc|Hc].
  - apply (H2 c (y ++ rev b)). rewrite Ex, Hc. reflexivity.
  - apply (H4 c (rev y)). rewrite <- (rev_involutive x), Hc, rev_app_distr. reflexivity.
Qed.
