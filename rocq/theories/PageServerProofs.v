(** Proofs about the menu of wordlists and the metrics. *)
From Coq Require Import String ZArith Permutation Sorted.
From Verif Require Import PrintProofs PageProofs PageSpec.
Local Open Scope list_scope.

Lemma insert_longer_perm x l : Permutation (insert_longer x l) (x :: l).
Proof. induction l as [|y l IH]; [apply Permutation_refl|]. cbn [insert_longer]. destruct (snd y <=? snd x); [apply Permutation_refl|]. eapply perm_trans; [apply perm_skip; exact IH|apply perm_swap]. Qed.
Lemma menu_perm l : Permutation (menu l) l.
Proof. unfold menu. induction l as [|x l IH]; [constructor|]. cbn [fold_right]. eapply perm_trans; [apply insert_longer_perm|apply perm_skip; exact IH]. Qed.
Lemma insert_longer_sorted x l : StronglySorted (fun a b => snd b <= snd a) l -> StronglySorted (fun a b => snd b <= snd a) (insert_longer x l).
Proof.
  induction 1 as [|y l Hs IH Hf]; [repeat constructor|]. cbn [insert_longer]. destruct (Nat.leb_spec (snd y) (snd x)) as [H|H].
  - constructor; [constructor; assumption|]. constructor; [exact H|]. rewrite Forall_forall in *. intros z Hz. specialize (Hf z Hz). lia.
  - constructor; [exact IH|]. rewrite Forall_forall in *. intros z Hz. apply (Permutation_in _ (insert_longer_perm x l)) in Hz. destruct Hz as [<-|Hz]; [lia|auto].
Qed.
Lemma menu_sorted l : StronglySorted (fun a b => snd b <= snd a) (menu l).
Proof. unfold menu. induction l as [|x l IH]; [constructor|]. cbn [fold_right]. apply insert_longer_sorted. exact IH. Qed.
Lemma text_eqb_eq a b : text_eqb a b = true <-> a = b.
Proof.
  revert b. induction a as [|x a IH]; intros [|y b]; cbn [text_eqb]; split; intros H; try discriminate; try reflexivity.
  - apply andb_true_iff in H. destruct H as [H1 H2]. apply N.eqb_eq in H1. apply IH in H2. congruence.
  - injection H as -> ->. rewrite N.eqb_refl. apply IH. reflexivity.
Qed.
Lemma selected_spec l : match selected l with
  | None => l = []
  | Some name => (In (str "default") (map fst l) -> name = str "default") /\
      exists n, In (name, n) l /\ (~ In (str "default") (map fst l) -> Forall (fun x => snd x <= n) l)
  end.
Proof.
  unfold selected. pose proof (menu_perm l) as Hp. pose proof (menu_sorted l) as Hs. destruct (filter _ (menu l)) as [|x f] eqn:Ef.
  - assert (Hn : ~ In (str "default") (map fst l)).
    { intros H. apply in_map_iff in H. destruct H as (y & E & Hy). apply (Permutation_in _ (Permutation_sym Hp)) in Hy. assert (G : In y []) by (rewrite <- Ef; apply filter_In; split; [exact Hy|apply text_eqb_eq; exact E]). destruct G. }
    destruct (menu l) as [|[name n] m] eqn:Em; [cbn; apply Permutation_nil in Hp; congruence|]. cbn [hd_error option_map fst]. split; [contradiction|]. exists n. split; [apply (Permutation_in _ Hp); left; reflexivity|]. intros _.
    apply StronglySorted_inv in Hs. destruct Hs as [_ Hf]. apply (Permutation_Forall Hp). constructor; [reflexivity|exact Hf].
  - assert (Hl : In (last f x) (x :: f)). { clear. destruct f as [|y f _] using rev_ind; [left; reflexivity|]. rewrite last_last. right. apply in_or_app. right. left. reflexivity. }
    rewrite <- Ef in Hl. apply filter_In in Hl. destruct Hl as [Hl He]. apply text_eqb_eq in He. rewrite He. split; [reflexivity|]. exists (snd (last f x)). split; [rewrite <- He, <- surjective_pairing; apply (Permutation_in _ Hp); exact Hl|].
    intros H. destruct H. rewrite <- He. apply in_map. apply (Permutation_in _ Hp). exact Hl.
Qed.
Lemma show_nat_decimal n : in_decimal (show_nat n) n.
Proof.
  unfold show_nat. set (f := S (N.to_nat (N.size (N.of_nat n)))). destruct (digits_from_spec f (N.of_nat n) []) as (d & E1 & E2 & E3 & E4).
  - eapply N.lt_le_trans; [apply N.size_gt|]. apply N.pow_le_mono_r; [lia|]. unfold f. lia.
  - constructor.
  - rewrite app_nil_r in *. rewrite E1. split; [exact E2|]. split; [apply E3; unfold f; lia|exact E4].
Qed.
Lemma digits_no_newline d : digits d -> ~ In 10%N d.
Proof. intros H Hi. unfold digits in H. rewrite Forall_forall in H. specialize (H _ Hi). vm_compute in H. discriminate H || destruct H; lia. Qed.
Lemma str_no_newline t : forallb (fun c => negb (N.eqb c 10)) t = true -> ~ In 10%N t.
Proof. intros H Hi. rewrite forallb_forall in H. specialize (H _ Hi). discriminate H. Qed.
Lemma no_newline_app a b : ~ In 10%N a -> ~ In 10%N b -> ~ In 10%N (a ++ b).
Proof. intros Ha Hb H. apply in_app_or in H. tauto. Qed.

Lemma script_lines lists : Forall (fun l => ~ In 10%N (fst l)) lists ->
  exists ls, text_lines (get_wordlist_js lists) (str "window.WORDLISTS = [];" :: ls) /\ Forall2 announces lists ls.
Proof.
  intros H. unfold get_wordlist_js.
  exists (map (fun l : text * list word => str "window.WORDLISTS.push({" ++ quoted (str "name") ++ str ": " ++ quoted (fst l) ++ str ", " ++ quoted (str "len") ++ str ": " ++ show_nat (length (snd l)) ++ str "});") lists). split.
  - match goal with |- text_lines (?a ++ 10%N :: ?r) _ => change (text_lines (a ++ [10%N] ++ r) (a :: map (fun l : text * list word => str "window.WORDLISTS.push({" ++ quoted (str "name") ++ str ": " ++ quoted (fst l) ++ str ", " ++ quoted (str "len") ++ str ": " ++ show_nat (length (snd l)) ++ str "});") lists)) end.
    apply lines_one; [apply str_no_newline; reflexivity|]. induction H as [|l lists Hl _ IH]; [constructor|]. cbn [flat_map map].
    match goal with |- text_lines (?x ++ ?r) (?y :: _) => replace (x ++ r) with (y ++ [10%N] ++ r) by (unfold quoted; rewrite <- !app_assoc; reflexivity) end. apply lines_one; [|exact IH].
    unfold quoted. repeat apply no_newline_app; try (apply str_no_newline; reflexivity); [exact Hl|apply digits_no_newline, show_nat_decimal].
  - clear H. induction lists as [|l lists IH]; cbn [map]; constructor; [|exact IH]. exists (show_nat (length (snd l))). split; [apply show_nat_decimal|reflexivity].
Qed.
Lemma metrics_lines active total lists : Forall (fun l => ~ In 10%N (fst l)) lists ->
  exists ls a t sizes, text_lines (get_metrics active total lists) ls /\ filter is_sample ls = a :: t :: sizes /\
    sample (str "noodle_queries_active") active a /\ sample (str "noodle_queries_total") total t /\
    Forall2 (fun l => sample (str "noodle_wordlist_size{wordlist=" ++ quoted (fst l) ++ str "}") (length (snd l))) lists sizes.
Proof.
  intros H. set (size := fun l : text * list word => (str "noodle_wordlist_size{wordlist=" ++ quoted (fst l) ++ str "}") ++ [32%N] ++ show_nat (length (snd l))).
  assert (Hd : forall n, ~ In 10%N (show_nat n)) by (intros n; apply digits_no_newline, show_nat_decimal).
  exists ([str "# HELP noodle_queries_active"; str "# TYPE noodle_queries_active gauge"; str "noodle_queries_active" ++ [32%N] ++ show_nat active; [];
           str "# HELP noodle_queries_total"; str "# TYPE noodle_queries_total counter"; str "noodle_queries_total" ++ [32%N] ++ show_nat total; [];
           str "# HELP noodle_wordlist_size"; str "# TYPE noodle_wordlist_size gauge"] ++ map size lists), (str "noodle_queries_active" ++ [32%N] ++ show_nat active), (str "noodle_queries_total" ++ [32%N] ++ show_nat total), (map size lists).
  split; [|split; [|split; [exists (show_nat active); split; [apply show_nat_decimal|reflexivity]|split; [exists (show_nat total); split; [apply show_nat_decimal|reflexivity]|]]]].
  - unfold get_metrics. cbn [app].
    assert (L : forall a r ls, ~ In 10%N a -> text_lines r ls -> text_lines (a ++ 10%N :: r) (a :: ls)) by (intros a r ls Ha Hr; exact (lines_one a r ls Ha Hr)).
    assert (L2 : forall a b r ls, ~ In 10%N a -> ~ In 10%N b -> text_lines r ls -> text_lines (a ++ b ++ 10%N :: r) ((a ++ b) :: ls)) by (intros a b r ls Ha Hb Hr; rewrite app_assoc; apply L; [apply no_newline_app; assumption|exact Hr]).
    apply L; [apply str_no_newline; reflexivity|]. apply L; [apply str_no_newline; reflexivity|]. apply (L2 (str "noodle_queries_active ")); [apply str_no_newline; reflexivity|apply Hd|].
    apply (L []); [intros []|]. apply L; [apply str_no_newline; reflexivity|]. apply L; [apply str_no_newline; reflexivity|]. apply (L2 (str "noodle_queries_total ")); [apply str_no_newline; reflexivity|apply Hd|].
    apply (L []); [intros []|]. apply L; [apply str_no_newline; reflexivity|]. apply L; [apply str_no_newline; reflexivity|].
    induction H as [|l lists Hl _ IH]; [constructor|]. cbn [flat_map map].
    match goal with |- text_lines (?x ++ ?r) (?y :: _) => replace (x ++ r) with (y ++ [10%N] ++ r) by (unfold size, quoted; change (str "} ") with (str "}" ++ [32%N]); repeat (cbn [app]; rewrite <- app_assoc); cbn [app]; reflexivity) end. apply lines_one; [|exact IH].
    unfold size, quoted. repeat apply no_newline_app; try (apply str_no_newline; reflexivity); [exact Hl|apply Hd].
  - cbn [app filter is_sample]. assert (E : filter is_sample (map size lists) = map size lists) by (clear H; induction lists as [|l lists IH]; [reflexivity|]; cbn [map filter]; rewrite IH; reflexivity). cbn. rewrite E. reflexivity.
  - clear H. induction lists as [|l lists IH]; cbn [map]; constructor; [|exact IH]. exists (show_nat (length (snd l))). split; [apply show_nat_decimal|reflexivity].
Qed.
