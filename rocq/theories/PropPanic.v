(** Property C50: what makes the parser panic (parser.rs). See PropParser for termination and for a
    text that makes it panic. *)
From Coq Require Import String.
From Verif Require Import TextProofs PanicProofs.
Local Open Scope list_scope.

(** [l] is a line of [t], and [p] is the text in front of it. *)
Definition line_at (t p l : text) : Prop :=
  exists r, t = p ++ l ++ r /\ one_line l /\ (p = [] \/ exists p' s, p = p' ++ [s] /\ sep s) /\ (r = [] \/ exists s r', r = s :: r' /\ sep s).
(** If every line that is read as a pattern, setting or macro definition has, with the macros known
    by then replaced, only numbers below 2^64, the text is parsed or its error is reported with the
    number of a line. *)
Theorem C50_panics_only_by_numbers : forall u t,
  (forall p l, line_at t p l -> forall q l', parse_query u p = Ok (Parsed q) -> wordlist (q_options q) = None -> expanded (macros q) l l' -> numbers_fit l') ->
  exists r, parse_query u t = Ok r /\ match r with Parsed _ => True | ParseError n => 1 <= n <= line_count t end.
Proof. intros u t H. rewrite <- split_count. apply panics_by_numbers. intros p l r q l' E Hp Hl Hr. apply (H p l). exists r. auto. Qed.
Print Assumptions C50_panics_only_by_numbers.
(** It is the replaced text that counts: N=9999999999 twice makes a number of 20 digits. *)
Theorem C50_macro_numbers_refuted : forall u, numbers_fit (str "N=9999999999;a{NN}") /\ parse_query u (str "N=9999999999;a{NN}") = Panic.
Proof.
  intros u. split; [|vm_compute; reflexivity]. intros p x q E Hx.
  assert (G : length x <= 10).
  { destruct (Nat.le_gt_cases (length x) 10) as [|G]; [assumption|]. exfalso.
    assert (H : exists i, nth_error (str "N=9999999999;a{NN}") i <> None /\ length p <= i < length p + length x /\ (i = 1 \/ i = 12 \/ i = 16 \/ i = 0 \/ i = 13 \/ i = 14 \/ i = 15 \/ i = 17)).
    { pose proof (f_equal (@length N) E) as L. rewrite !app_length in L. change (length (str "N=9999999999;a{NN}")) with 18 in L. 
      assert (K : length p <= 1 \/ length p > 1) by lia. destruct K as [K|K]; [exists 1|exists 12]; (split; [cbn; discriminate|]); split; auto; lia. }
    destruct H as (i & _ & Hi & H). assert (F : nth_error (str "N=9999999999;a{NN}") i = nth_error x (i - length p)).
    { rewrite E. rewrite nth_error_app2 by lia. rewrite nth_error_app1 by lia. reflexivity. }
    destruct (nth_error x (i - length p)) as [c|] eqn:Ec; [|apply nth_error_None in Ec; lia]. apply nth_error_In in Ec. unfold digits in Hx. rewrite Forall_forall in Hx. specialize (Hx c Ec).
    repeat (destruct H as [->|H]; [cbn in F; injection F as <-; discriminate Hx|]). subst i. cbn in F. injection F as <-. discriminate Hx. }
  assert (B : forall y, digits y -> (decimal y < 10 ^ N.of_nat (length y))%N).
  { intros y. induction y as [|c y IH] using rev_ind; intros Hy; [reflexivity|]. unfold digits in Hy. apply Forall_app in Hy. destruct Hy as [Hy Hc]. inversion Hc as [|? ? Hc' _]; subst. apply digit_range in Hc'. specialize (IH Hy). rewrite decimal_last, app_length. cbn [length]. rewrite Nat.add_1_r, Nat2N.inj_succ, N.pow_succ_r'. lia. }
  specialize (B x Hx). eapply N.lt_trans; [exact B|]. eapply N.le_lt_trans; [apply (N.pow_le_mono_r 10 _ 10); lia|reflexivity].
Qed.
Print Assumptions C50_macro_numbers_refuted.
Example C50_with_macros : forall u, exists q, parse_query u (str "N=12;a{N}") = Ok (Parsed q) /\ macros q = [(str "N", str "12")] /\ line_at (str "N=12;a{N}") (str "N=12;") (str "a{N}") /\ expanded (macros q) (str "a{N}") (str "a{12}").
Proof.
  intros u. eexists. split; [vm_compute; reflexivity|]. split; [reflexivity|]. split.
  - exists []. split; [reflexivity|]. split; [change (str "a{N}") with [97; 123; 78; 125]%N; repeat constructor; unfold sep; lia|]. split; [right; exists (str "N=12"), 59%N; split; [reflexivity|right; reflexivity]|auto].
  - change (str "a{12}") with (substitute [(str "N", str "12")] (str "a{N}")). apply substitute_spec. repeat constructor. discriminate.
Qed.
