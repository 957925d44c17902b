(** Properties C50 and C36 with the sum of a block <word+n> made in 64 bits (parser.rs:351-355), in
    both build profiles. [parse_query64 true] is the parser with overflow checks (Cargo.toml:8-19),
    [parse_query64 false] the one of the release profile. *)
From Coq Require Import String Permutation.
From Verif Require Import TextProofs PropPanic Expand64Proofs PropParser.
Local Open Scope list_scope.

(** If in every line that is read, with the macros known by then replaced, the numbers stay below
    2^64 when the length of the line is added, the text is parsed or its error is reported with the
    number of a line, in either profile; and the sums are what every other theorem about texts takes
    them to be. *)
Theorem C50_sums_fit : forall ovf u t,
  (forall p l, line_at t p l -> forall q l', parse_query u p = Ok (Parsed q) -> wordlist (q_options q) = None -> expanded (macros q) l l' -> numbers_room l') ->
  parse_query64 ovf u t = parse_query u t /\
  exists r, parse_query u t = Ok r /\ match r with Parsed _ => True | ParseError n => 1 <= n <= line_count t end.
Proof.
  intros ovf u t H. split.
  - apply sums_fit. intros p l r q l' E Hp Hl Hr. apply (H p l). exists r. auto.
  - apply C50_panics_only_by_numbers. intros p l Hpl q l' Eq Hw He. apply room_fit. exact (H p l Hpl q l' Eq Hw He).
Qed.
Print Assumptions C50_sums_fit.
Example C50_sums_hypothesis_met : numbers_room (str "<cat+12>") /\ forall u, exists q, parse_query64 true u (str "<cat+12>") = Ok (Parsed q).
Proof.
  split.
  - intros p x q E Hx. assert (L : length x <= 8) by (pose proof (f_equal (@length N) E) as L; rewrite !app_length in L; change (length (str "<cat+12>")) with 8 in L; lia).
    assert (B : forall y, digits y -> (decimal y < 10 ^ N.of_nat (length y))%N).
    { intros y. induction y as [|c y IH] using rev_ind; intros Hy; [reflexivity|]. unfold digits in Hy. apply Forall_app in Hy. destruct Hy as [Hy Hc]. inversion Hc as [|? ? Hc' _]; subst. apply digit_range in Hc'. specialize (IH Hy). rewrite decimal_last, app_length. cbn [length]. rewrite Nat.add_1_r, Nat2N.inj_succ, N.pow_succ_r'. lia. }
    specialize (B x Hx). change (N.of_nat (length (str "<cat+12>"))) with 8%N. assert (C : (10 ^ N.of_nat (length x) <= 10 ^ 8)%N) by (apply N.pow_le_mono_r; lia). change (10 ^ 8)%N with 100000000%N in C. lia.
  - intros u. eexists. vm_compute. reflexivity.
Qed.
(** Numbers below 2^64 are not enough: with overflow checks, the sum itself panics. *)
Theorem C50_sum_panics_refuted : forall u p d, letters p -> p <> [] -> digits d -> d <> [] -> (decimal d < 2 ^ 64)%N -> (2 ^ 64 <= decimal d + N.of_nat (length p))%N ->
  parse_query64 true u (str "<" ++ p ++ str "+" ++ d ++ str ">") = Panic.
Proof. exact add_panics. Qed.
Print Assumptions C50_sum_panics_refuted.
(** Without them the sum wraps, and the query is one that no word fits. *)
Theorem C36_sum_wraps : forall u p d, letters p -> p <> [] -> digits d -> d <> [] -> (decimal d < 2 ^ 64)%N -> (2 ^ 64 <= decimal d + N.of_nat (length p))%N ->
  exists q, parse_query64 false u (str "<" ++ p ++ str "+" ++ d ++ str ">") = Ok (Parsed q) /\ q_options q = no_query_options /\ forall w, ~ asks_for q w.
Proof. exact add_wraps. Qed.
Print Assumptions C36_sum_wraps.
(** Added letters whose number fits, as C36_transadd_text has it, in both profiles. *)
Theorem C36_transadd_sum : forall ovf u p d, letters p -> p <> [] -> digits d -> d <> [] -> (decimal d + N.of_nat (length p) < 2 ^ 64)%N ->
  exists q, parse_query64 ovf u (str "<" ++ p ++ str "+" ++ d ++ str ">") = Ok (Parsed q) /\
  forall w, asks_for q w <-> exists extra, Permutation (symbols p ++ extra) w /\ Forall (fun c => c < 26) w /\ length extra = N.to_nat (decimal d).
Proof.
  intros ovf u p d Hp Hn Hd Hd0 Hv. rewrite (add_sum ovf u p d Hp Hn Hd Hd0 Hv). apply C36_transadd_text; try assumption. lia.
Qed.
Print Assumptions C36_transadd_sum.
Example C36_sum_wraps_met : letters (str "ab") /\ digits (str "18446744073709551615") /\ (decimal (str "18446744073709551615") < 2 ^ 64)%N /\
  (2 ^ 64 <= decimal (str "18446744073709551615") + N.of_nat (length (str "ab")))%N.
Proof. split; [repeat constructor; unfold alpha; cbv; tauto|]. split; [repeat constructor|]. split; vm_compute; congruence. Qed.
