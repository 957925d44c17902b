(** C23: when the optimiser gives up after its 100 passes (query.rs:366-368) the matchers are left with
    different word lists, and the search reports phrases that the expressions do not accept. *)
From Verif Require Import RunProofs MatchProofs PropQuery.

Definition letters26 : charset := N.ones 26.
Definition one_letter (c : char) : ast := CharClass (charset_of c).
(** The expression [([^y][a-z]|x a y a|x b y b|...)*], where [x] is letter [k] and [y] the letter after it. *)
Definition ring_expr (k : nat) : expr_ast :=
  let y := (k + 1) mod 26 in
  mkExprAst
    (Repetition (Alternatives
      (Sequence [CharClass (N.ldiff letters26 (charset_of y)); CharClass letters26] ::
       map (fun t => Sequence [one_letter k; one_letter t; one_letter y; one_letter (if k =? 25 then t + 1 else t)]) (seq 0 5))) 0 None)
    (mkExprOptions None None None).
Definition ring : list expr_ast := map ring_expr (seq 0 26).
(** All words of two letters whose second letter is one of a to e, but for "aa". *)
Definition ring_words : list word := tl (flat_map (fun t => map (fun k => tword 0 [k; t]) (seq 0 26)) (seq 0 5)).
Definition ring_compiled : list expression := Eval vm_compute in map compile ring.
Lemma ring_compiled_ok : compiled_all ring ring_compiled.
Proof.
  assert (H : map compile ring = ring_compiled) by (vm_cast_no_check (eq_refl ring_compiled)).
  rewrite <- H. apply compile_ok; [discriminate|]. vm_cast_no_check (eq_refl true).
Qed.
Definition ring_run : list response :=
  [RLogs true; RMatch [tword 0 [2; 4]; tword 0 [2; 4]]; RMatch [tword 0 [2; 4]; tword 0 [3; 4]]; RComplete (AllPhrases 2 2)].
Lemma ring_run_ok : query_run ring_compiled ring_words 2 None ring_run.
Proof. apply (run_b_ok _ _ _ _ (100 * 100) 4). vm_cast_no_check (eq_refl (Some ring_run)). Qed.

(** 26 expressions over 129 words: "ce ce" is reported although the second expression does not accept it. *)
Theorem C23_gave_up_refuted : exists es exs wl rs p,
  compiled_all es exs /\ sorted_words wl /\ query_run exs wl 2 None rs /\ In (RLogs true) rs /\
  In (RMatch p) rs /\ ~ acc_all exs p.
Proof.
  exists ring, ring_compiled, ring_words, ring_run, [tword 0 [2; 4]; tword 0 [2; 4]].
  split; [exact ring_compiled_ok|]. split; [apply sorted_b_ok; vm_compute; reflexivity|]. split; [exact ring_run_ok|].
  split; [left; reflexivity|]. split; [right; left; reflexivity|]. intros H.
  destruct (compiled_good _ _ ring_compiled_ok) as [_ Hgd]. apply (all_accept_decides _ Hgd) in H. vm_compute in H. discriminate H.
Qed.
Print Assumptions C23_gave_up_refuted.
