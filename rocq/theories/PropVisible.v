(** Property C18 for phrases (query.rs: QueryEvaluator over expression.rs: fill_transition_table). *)
From Verif Require Import PropFuzz PropQuery AnyProofs.
From Coq Require Import Permutation Sorted.

(** Phrases whose symbols agree but for those that do not count are accepted alike. *)
Theorem C18_phrases_accepted_alike : forall es exs p p',
  compiled_all es exs -> Forall (fun e => significant (options e) (phrase_text p) = significant (options e) (phrase_text p')) es ->
  acc_all exs p -> acc_all exs p'.
Proof.
  intros es exs p p' [_ H] Hv. unfold acc_all. induction H as [|e ex es exs (ovf & Hc) _ IH]; [constructor|]. inversion_clear Hv as [|? ? Hv1 Hv2]. intros Ha. inversion_clear Ha as [|? ? Ha1 Ha2].
  constructor; [|exact (IH Hv2 Ha2)]. destruct Ha1 as (u & k & H1 & H2 & H3). exists u, k. split; [exact H1|]. split; [|exact H3]. rewrite (ast_visible _ _ _ Hc) in *. rewrite <- Hv1. exact H2.
Qed.
Print Assumptions C18_phrases_accepted_alike.
(** So they are reported alike: a phrase of the word list is reported if one like it is (unless it repeats one
    word and is the phrase lost according to C24). *)
Theorem C18_phrases_reported_alike : forall es exs wl dl rs p p',
  compiled_all es exs -> sorted_words wl -> ~ gives_up exs wl dl -> query_run exs wl dl None rs ->
  Forall (fun e => significant (options e) (phrase_text p) = significant (options e) (phrase_text p')) es ->
  In p (reported rs) -> Forall (fun w => In w wl) p' -> length p' <= dl ->
  length p' = 1 \/ (exists u v, In u p' /\ In v p' /\ u <> v) ->
  In p' (reported rs).
Proof.
  intros es exs wl dl rs p p' Hc Hs Hg Hrun Hv Hin Hw Hl Hk. destruct (compiled_good _ _ Hc) as [_ Hgd]. pose proof (all_accept_decides exs Hgd) as Hacc.
  assert (Ha : acc_all exs p').
  { apply (C18_phrases_accepted_alike es exs p p' Hc Hv). destruct (C24_complete_but_one_partial _ _ _ _ _ _ Hc Hs Hg Hacc Hrun) as (lost & HP & _).
    assert (H : In p (all_phrases (all_accept exs) wl dl)) by (apply (Permutation_in _ HP); apply in_app_iff; left; exact Hin). apply in_all_phrases in H. apply Hacc. apply H. }
  destruct Hk as [Hk|(u & v & Hu & Hv' & Huv)].
  - destruct p' as [|w [|w' p']]; try discriminate Hk. pose proof (C21_single_words_exact _ _ _ _ _ _ Hc Hs Hacc Hrun) as E. assert (H : In w (flat_map one_word rs)).
    { rewrite E. apply filter_In. split; [inversion Hw; assumption|]. apply Hacc. exact Ha. }
    apply in_flat_map in H. destruct H as (r & Hr & H). apply in_flat_map. exists r. split; [exact Hr|]. destruct r as [ | |p0| ]; cbn in *; try contradiction. destruct p0 as [|a [|b p0]]; cbn in H; try contradiction. destruct H as [->|[]]. left. reflexivity.
  - apply in_flat_map. exists (RMatch p'). split; [|left; reflexivity]. exact (C24_phrases_of_two_words_complete_partial _ _ _ _ _ p' u v Hc Hs Hg Hrun Hw Hl Ha Hu Hv' Huv).
Qed.
Print Assumptions C18_phrases_reported_alike.
(** For instance "don't" then "a" and "dont" then "a", if punctuation is not made explicit. *)
Example C18_phrases_met : let a := ascii_word [0] in let p := [ascii_word [3; 14; 13; 26; 19]; a] in let p' := [ascii_word [3; 14; 13; 19]; a] in
  significant (mkExprOptions None None None) (phrase_text p) = significant (mkExprOptions None None None) (phrase_text p') /\ phrase_text p <> phrase_text p'.
Proof. split; [reflexivity|discriminate]. Qed.
