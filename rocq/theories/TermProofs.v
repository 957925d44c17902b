(** The languages of the substring, subset and superset operators. *)
From Verif Require Export MacroProofs.
Local Open Scope list_scope.

Definition parsed_terms (ns : list node) (l : list ast) : Prop := Forall2 (fun n a => parse_term n = Ok (Some a)) ns l.
Lemma terms_eq ns l : parsed_terms ns l -> parse_terms ns = Ok l.
Proof. induction 1 as [|n a ns l E _ IH]; [reflexivity|]. cbn [parse_terms]. fold parse_terms. rewrite E. cbn [bind]. rewrite IH. reflexivity. Qed.
Lemma parse_subset t ns l : parsed_terms ns l -> parse_term (Node r_subset t ns) = Ok (Some (Sequence (map (fun c => Repetition c 0 (Some 1)) l))).
Proof. intros H. apply terms_eq in H. unfold parse_terms in H. cbn [parse_term]. rewrite H. reflexivity. Qed.
Lemma parse_superset t ns l : parsed_terms ns l -> parse_term (Node r_superset t ns) = Ok (Some (Sequence (flat_map (fun c => [any_many; c]) l ++ [any_many]))).
Proof. intros H. apply terms_eq in H. unfold parse_terms in H. cbn [parse_term]. rewrite H. reflexivity. Qed.
Lemma parse_substring t ns l : parsed_terms ns l -> parse_term (Node substring t ns) = Ok (Some (Substring l)).
Proof. intros H. apply terms_eq in H. unfold parse_terms in H. cbn [parse_term]. rewrite H. reflexivity. Qed.

Lemma power_one L w : power L 1 w <-> L w.
Proof. cbn [power]. unfold cat, empty_string. split; [intros (u & v & -> & H & ->); rewrite app_nil_r; exact H|intros H; exists w, []; rewrite app_nil_r; auto]. Qed.
Lemma optional_eq a w : denotes (Repetition a 0 (Some 1)) w <-> w = [] \/ denotes a w.
Proof.
  cbn [denotes]. split.
  - intros (n & _ & Hn & H). specialize (Hn 1 eq_refl). destruct n as [|[|n]]; [left; exact H|right; apply power_one; exact H|lia].
  - intros [-> |H]; [exists 0; split; [lia|]; split; [intros; lia|reflexivity]|exists 1; split; [lia|]; split; [intros m [= <-]; lia|apply power_one; exact H]].
Qed.
Lemma subset_language l : forall w, denotes (Sequence (map (fun c => Repetition c 0 (Some 1)) l)) w <-> exists chosen, sublist chosen l /\ cats (map denotes chosen) w.
Proof.
  induction l as [|a l IH]; intros w.
  - cbn. split; [intros ->; exists []; split; [constructor|reflexivity]|intros (ch & H & E); inversion H; subst; exact E].
  - change (denotes (Sequence (map (fun c => Repetition c 0 (Some 1)) (a :: l))) w) with (cat (denotes (Repetition a 0 (Some 1))) (denotes (Sequence (map (fun c => Repetition c 0 (Some 1)) l))) w). unfold cat. split.
    + intros (x & y & -> & Hx & Hy). apply IH in Hy. destruct Hy as (ch & Hs & Hc). apply optional_eq in Hx. destruct Hx as [-> |Hx]; [exists ch; split; [constructor; exact Hs|exact Hc]|].
      exists (a :: ch). split; [constructor; exact Hs|]. exists x, y. auto.
    + intros (ch & Hs & Hc). inversion Hs as [|b l1 l2 Hs'|b l1 l2 Hs']; subst.
      * destruct Hc as (x & y & -> & Hx & Hy). exists x, y. split; [reflexivity|]. split; [apply optional_eq; right; exact Hx|]. apply IH. eauto.
      * exists [], w. split; [reflexivity|]. split; [apply optional_eq; left; reflexivity|]. apply IH. eauto.
Qed.
Lemma any_many_eq w : denotes any_many w <-> Forall (fun c => c < CHAR_MAX) w.
Proof.
  assert (Hone : forall x, denotes (CharClass ALL) x <-> exists c, x = [c] /\ c < CHAR_MAX).
  { intros x. cbn [denotes]. split; intros (c & -> & H); exists c; (split; [reflexivity|]).
    - rewrite cs_contains_mem, mem_ALL in H. apply Nat.ltb_lt in H. exact H.
    - rewrite cs_contains_mem, mem_ALL. apply Nat.ltb_lt. exact H. }
  unfold any_many. split.
  - intros (n & _ & _ & H). revert w H. change (power _ n) with (power (denotes (CharClass ALL)) n). induction n as [|n IH]; intros w H; [hnf in H; subst; constructor|]. destruct H as (x & y & -> & Hx & Hy). apply Hone in Hx. destruct Hx as (c & -> & Hc). constructor; [exact Hc|apply IH; exact Hy].
  - intros H. exists (length w). split; [lia|]. split; [discriminate|]. change (power _ (length w)) with (power (denotes (CharClass ALL)) (length w)). induction H as [|c w Hc _ IH]; [reflexivity|]. exists [c], w. split; [reflexivity|]. split; [apply Hone; eauto|exact IH].
Qed.
Lemma superset_language l : forall w, denotes (Sequence (flat_map (fun c => [any_many; c]) l ++ [any_many])) w <-> with_gaps (map denotes l) w.
Proof.
  induction l as [|a l IH]; intros w.
  - cbn [flat_map app with_gaps map]. rewrite <- any_many_eq. change (cat (denotes any_many) empty_string w <-> denotes any_many w). unfold cat, empty_string.
    split; [intros (x & y & -> & H & ->); rewrite app_nil_r; exact H|intros H; exists w, []; rewrite app_nil_r; auto].
  - change (cat (denotes any_many) (cat (denotes a) (denotes (Sequence (flat_map (fun c => [any_many; c]) l ++ [any_many])))) w <-> with_gaps (denotes a :: map denotes l) w).
    cbn [with_gaps]. unfold cat. split.
    + intros (g & y & -> & Hg & x & r & -> & Hx & Hr). exists g, x, r. split; [reflexivity|]. split; [apply any_many_eq; exact Hg|]. split; [exact Hx|apply IH; exact Hr].
    + intros (g & x & r & -> & Hg & Hx & Hr). exists g, (x ++ r). split; [reflexivity|]. split; [apply any_many_eq; exact Hg|]. exists x, r. split; [reflexivity|]. split; [exact Hx|apply IH; exact Hr].
Qed.
Lemma map_split {A B} (f : A -> B) l : forall a b, map f l = a ++ b -> exists x y, l = x ++ y /\ map f x = a /\ map f y = b.
Proof.
  induction l as [|z l IH]; intros a b E.
  - symmetry in E. apply app_eq_nil in E. destruct E as [-> ->]. exists [], []. auto.
  - destruct a as [|c a]; [exists [], (z :: l); auto|]. injection E as Ec E. destruct (IH a b E) as (x & y & -> & Hx & Hy). exists (z :: x), y. cbn. rewrite Hx, Ec. auto.
Qed.
Lemma substring_language l w : denotes (Substring l) w <-> exists pre mid post, l = pre ++ mid ++ post /\ cats (map denotes mid) w.
Proof.
  cbn [denotes]. split.
  - intros (p & r & q & E & H). apply map_split in E. destruct E as (x & y & -> & _ & E). apply map_split in E. destruct E as (y1 & y2 & -> & E & _). exists x, y1, y2. rewrite E. auto.
  - intros (p & r & q & -> & H). exists (map denotes p), (map denotes r), (map denotes q). rewrite !map_app. auto.
Qed.
