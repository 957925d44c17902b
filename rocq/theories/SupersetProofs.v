(** What the command-line tool prints for [(p:+)]. *)
From Coq Require Import String.
From Verif Require Export SyntaxProofs7.
Local Open Scope list_scope.

Lemma superset_flat p : flat (Sequence [operator_ast r_superset (map letter_class p)]) = true /\ width (Sequence [operator_ast r_superset (map letter_class p)]) = 4 * length p + 3.
Proof.
  cbn [flat forallb width map list_sum fold_right operator_ast]. rewrite andb_true_r, Nat.add_0_r.
  assert (G : forallb flat (flat_map (fun c => [any_many; c]) (map letter_class p) ++ [any_many]) = true /\ list_sum (map width (flat_map (fun c => [any_many; c]) (map letter_class p) ++ [any_many])) = 4 * length p + 3).
  { induction p as [|c p [IH1 IH2]]; [split; reflexivity|]. cbn [map flat_map app forallb]. change (flat any_many) with true. cbn [letter_class flat andb].
    split; [exact IH1|]. cbn [map]. cbn [list_sum fold_right]. change (fold_right Nat.add 0 ?l) with (list_sum l). rewrite IH2. change (width any_many) with 3. change (width (letter_class c)) with 1. cbn [length]. lia. }
  split; [exact (proj1 G)|exact (proj2 G)].
Qed.
Lemma keeps_letters s t : Forall (fun c => c < 26) s -> (sublist s (letters_of t) <-> sublist s t).
Proof.
  intros H. split.
  - clear H. unfold letters_of. revert s. induction t as [|c t IH]; intros s; cbn [filter]; [intros H; exact H|]. destruct (negb (c =? 26) && negb (c =? 27)) eqn:E; intros Hs.
    + inversion Hs as [|? l ? H'|? ? ? H']; subst; [apply sublist_keep|apply sublist_drop]; apply IH; exact H'.
    + apply sublist_drop. apply IH. exact Hs.
  - induction 1 as [|a l l' Hs IH|a l l' Hs IH]; [constructor| |]; unfold letters_of; cbn [filter].
    + pose proof (Forall_inv H) as Ha. cbn beta in Ha. destruct (Nat.eqb_spec a 26); [lia|]. destruct (Nat.eqb_spec a 27); [lia|]. cbn [negb andb]. apply sublist_keep. apply IH. exact (Forall_inv_tail H).
    + destruct (_ && _); [apply sublist_drop|]; apply IH; exact H.
Qed.
Lemma superset_fits p t : letters p -> Forall (fun c => c < CHAR_MAX) t ->
  let a := Sequence [operator_ast r_superset (map letter_class p)] in
  (text_fits (mkExprAst a (detect_options a no_options)) t <-> sublist (PropParser.symbols p) (letters_of t)).
Proof.
  intros Hp Ht a. assert (Ho : detect_options a no_options = both_options).
  { unfold a. rewrite single_options. cbn [operator_ast]. apply superset_options. exact Hp. }
  assert (Hs : Forall (fun c => c < 26) (PropParser.symbols p)).
  { apply Forall_map. eapply Forall_impl; [|exact Hp]. intros c Hc. apply letter_char. exact Hc. }
  rewrite (keeps_letters (PropParser.symbols p) t Hs). unfold text_fits. cbn [options root]. rewrite Ho. change (requested_fuzz both_options) with 0.
  assert (Hsig : significant both_options t = t).
  { unfold significant. cbn [explicit_word_boundaries explicit_punctuation both_options]. clear. induction t as [|c t IH]; [reflexivity|]. cbn [filter]. rewrite IH. destruct (c =? 27), (c =? 26); reflexivity. }
  rewrite Hsig. split.
  - intros (x & k & Hk & Hf & y & n & -> & Hy). assert (k = 0) by lia. subst k. apply no_edits in Hf. subst t. apply denotes_matches in Hy. unfold a in Hy. apply superset_letters in Hy. destruct Hy as [Hy _].
    change (symbols_of p) with (PropParser.symbols p) in Hy. clear - Hy. induction Hy as [|c l l' Hy IH|c l l' Hy IH]; [apply sublist_none|apply sublist_keep; exact IH|apply sublist_drop; exact IH].
  - intros H. exists t, 0. split; [constructor|]. split; [apply no_edits; reflexivity|]. exists t, 0. split; [symmetry; apply app_nil_r|]. apply denotes_matches. unfold a. apply superset_letters. split; [exact H|exact Ht].
Qed.
Fixpoint sublistb (s t : list char) : bool :=
  match s, t with
  | [], _ => true
  | _, [] => false
  | a :: s', b :: t' => if a =? b then sublistb s' t' else sublistb s t'
  end.
Lemma sublist_skips {A} (a : A) s t : sublist (a :: s) t -> sublist s t.
Proof. intros H. remember (a :: s) as l eqn:E. revert s E. induction H as [|b l l' H IH|b l l' H IH]; intros s E; [discriminate|injection E as -> ->; apply sublist_drop; exact H|apply sublist_drop; apply IH; exact E]. Qed.
Lemma sublistb_ok s t : sublistb s t = true <-> sublist s t.
Proof.
  revert s. induction t as [|b t IH]; intros [|a s]; cbn [sublistb].
  - split; [constructor|reflexivity].
  - split; [discriminate|inversion 1].
  - split; [intros _; apply sublist_none|reflexivity].
  - destruct (Nat.eqb_spec a b) as [Eab|Hab].
    + subst b. rewrite IH. split; [intros H; apply sublist_keep; exact H|]. inversion 1 as [|? ? ? H'|? ? ? H']; subst; [exact H'|]. exact (sublist_skips _ _ _ H').
    + rewrite IH. split; [intros H; apply sublist_drop; exact H|]. inversion 1 as [|? ? ? H'|? ? ? H']; subst; [congruence|exact H'].
Qed.
Lemma filter_ext_on {A} (f g : A -> bool) l : Forall (fun x => f x = g x) l -> filter f l = filter g l.
Proof. induction 1 as [|x l Hx _ IH]; [reflexivity|]. cbn [filter]. rewrite Hx, IH. reflexivity. Qed.
Lemma superset_prints ovf u p ws : letters p -> p <> [] -> 4 * length p + 3 < 16 * 1024 -> Forall (fun w => Forall (fun c => c < CHAR_MAX) (w_chars w)) ws ->
  forall lines, prints ovf u (str "(" ++ p ++ str ":+)") ws lines <-> those (fun w => sublist (PropParser.symbols p) w) ws lines.
Proof.
  intros Hp Hn Hl Hws lines. assert (Ho : operator r_superset 43) by (right; right; split; reflexivity).
  set (e := mkExprAst (Sequence [operator_ast r_superset (map letter_class p)]) (detect_options (Sequence [operator_ast r_superset (map letter_class p)]) no_options)).
  assert (Ha : all_simple [e]).
  { constructor; [|constructor]. cbn [e root]. destruct (superset_flat p) as [H1 H2]. split; [apply sewn_branching; apply flat_branching; exact H1|]. unfold small. rewrite H2. exact Hl. }
  rewrite (single_prints ovf u _ ws _ (text_fits e) (operator_alone u r_superset 43 p Hp Hn Ho) eq_refl); cbn [q_expressions].
  - unfold those. split; intros (sel & -> & H).
    + exists (fun w => sublistb (PropParser.symbols p) (letters_of (w_chars w))). split; [|intros w; apply sublistb_ok]. f_equal. apply filter_ext_on. eapply Forall_impl; [|exact Hws]. intros w Hw.
      apply eq_true_iff_eq. rewrite H, sublistb_ok. apply superset_fits; assumption.
    + destruct (simple_single ovf [e] ws 1 ltac:(discriminate) Ha (le_n 1)) as (exs & _ & rs & _ & _ & sel' & _ & H'). exists sel'.
      assert (H2 : forall w, sel' w = true <-> text_fits e (w_chars w)) by (intros w; rewrite H'; unfold phrase_fits; rewrite letters_of_word; split; [intros G; exact (Forall_inv G)|intros G; constructor; [exact G|constructor]]).
      split; [|exact H2]. f_equal. apply filter_ext_on. eapply Forall_impl; [|exact Hws]. intros w Hw. apply eq_true_iff_eq. rewrite H, H2. symmetry. apply superset_fits; assumption.
  - discriminate.
  - exact Ha.
  - intros t. split; [intros H; exact (Forall_inv H)|intros H; constructor; [exact H|constructor]].
Qed.
