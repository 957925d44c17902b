(** Anagram blocks and their expansion. *)
From Verif Require Export Expand Lang BaseProofs WordsProofs.
From Coq Require Import Permutation.

(** ** Multisets *)
Lemma occ_app c u v : occ c (u ++ v) = occ c u + occ c v.
Proof. apply count_occ_app. Qed.
Lemma occ_cons c d w : occ c (d :: w) = (if d =? c then 1 else 0) + occ c w.
Proof. unfold occ. cbn [count_occ]. destruct (Nat.eq_dec d c), (Nat.eqb_spec d c); try congruence; reflexivity. Qed.
Lemma occ_nil c : occ c [] = 0. Proof. reflexivity. Qed.
Lemma occ_perm u v : (forall c, occ c u = occ c v) <-> Permutation u v.
Proof. symmetry. apply Permutation_count_occ. Qed.
Lemma sub_multiset w : forall bank, (forall c, occ c w <= occ c bank) <-> exists rest, Permutation bank (w ++ rest).
Proof.
  intros bank. split.
  - revert bank. induction w as [|a w IH]; intros bank H; [exists bank; reflexivity|].
    assert (Hin : In a bank). { apply (count_occ_In Nat.eq_dec). specialize (H a). rewrite occ_cons, Nat.eqb_refl in H. unfold occ in H. lia. }
    apply in_split in Hin. destruct Hin as (x & y & ->). destruct (IH (x ++ y)) as (rest & Hr).
    { intros c. specialize (H c). rewrite occ_app, !occ_cons in H. rewrite occ_app. lia. }
    exists rest. transitivity (a :: (x ++ y)); [symmetry; apply Permutation_middle|]. cbn [app]. apply perm_skip. exact Hr.
  - intros (rest & H) c. apply occ_perm with (c := c) in H. rewrite occ_app in H. lia.
Qed.

(** ** Histograms *)
Lemma histogram_in bank c n : In (c, n) (histogram bank) <-> c < CHAR_MAX /\ n = occ c bank /\ 0 < n.
Proof.
  unfold histogram. rewrite filter_In, in_map_iff. cbn [snd]. rewrite Nat.ltb_lt. split.
  - intros ((x & E & Hx) & Hn). injection E as <- <-. apply in_seq in Hx. unfold occ. lia.
  - intros (H1 & H2 & H3). split; [|exact H3]. exists c. unfold occ in H2. rewrite <- H2. split; [reflexivity|]. apply in_seq. lia.
Qed.
Lemma total_filter h : total_count (filter (fun p : char * nat => 0 <? snd p) h) = total_count h.
Proof. induction h as [|[c n] h IH]; [reflexivity|]. unfold total_count in *. cbn [filter snd]. destruct (Nat.ltb_spec 0 n); cbn [map fold_right snd]; rewrite IH; lia. Qed.
Lemma total_nil l : total_count (map (fun c => (c, occ c [])) l) = 0.
Proof. induction l as [|a l IH]; [reflexivity|]. unfold total_count in *. cbn. exact IH. Qed.
Lemma total_cons a bank l : NoDup l -> total_count (map (fun c => (c, occ c (a :: bank))) l) =
  (if existsb (Nat.eqb a) l then 1 else 0) + total_count (map (fun c => (c, occ c bank)) l).
Proof.
  induction l as [|b l IH]; intros H; [reflexivity|]. inversion H; subst. unfold total_count in *. cbn [map fold_right snd existsb]. rewrite IH by assumption. rewrite occ_cons.
  destruct (Nat.eqb_spec a b) as [->|]; cbn [orb]; [|lia]. replace (existsb (Nat.eqb b) l) with false; [lia|]. symmetry. apply not_true_is_false. intros E.
  apply existsb_exists in E. destruct E as (x & Hx & E). apply Nat.eqb_eq in E. subst. contradiction.
Qed.
Lemma total_histogram bank : Forall (fun c => c < CHAR_MAX) bank -> total_count (histogram bank) = length bank.
Proof.
  intros H. unfold histogram. rewrite total_filter. change (fun c => (c, count_occ Nat.eq_dec bank c)) with (fun c => (c, occ c bank)).
  induction H as [|a bank Ha _ IH]; [apply total_nil|]. rewrite total_cons by apply seq_NoDup. cbn [length].
  replace (existsb (Nat.eqb a) (seq 0 CHAR_MAX)) with true; [cbn [Nat.add]; f_equal; exact IH|]. symmetry. apply existsb_exists. exists a. split; [apply in_seq; lia|apply Nat.eqb_refl].
Qed.
Lemma bank_set_mem h c : mem (bank_set h) c = true <-> exists n, In (c, n) h.
Proof.
  unfold bank_set. assert (G : forall s, mem (fold_left (fun s p => cs_union s (charset_of (fst p))) h s) c = true <-> mem s c = true \/ exists n, In (c, n) h).
  { induction h as [|[d n] h IH]; intros s; cbn [fold_left].
    - split; [auto|]. intros [H|(n & [])]. exact H.
    - rewrite IH. unfold cs_union. rewrite mem_lor, charset_of_mem. cbn [fst]. rewrite orb_true_iff. split.
      + intros [[H|H]|(k & H)]; [left; exact H| |right; exists k; right; exact H]. apply Nat.eqb_eq in H. subst. right. exists n. left. reflexivity.
      + intros [H|(k & [H|H])]; [left; left; exact H| |right; eauto]. injection H as -> ->. left. right. apply Nat.eqb_refl. }
  rewrite G. rewrite mem_0. split; [intros [H|H]; [discriminate|exact H]|auto].
Qed.
Lemma bank_set_spec bank c : Forall (fun c => c < CHAR_MAX) bank -> cs_contains (bank_set (histogram bank)) c = true <-> In c bank.
Proof.
  intros H. rewrite cs_contains_mem, bank_set_mem. split.
  - intros (n & Hn). apply histogram_in in Hn. destruct Hn as (_ & -> & Hn). apply (count_occ_In Nat.eq_dec). exact Hn.
  - intros Hin. exists (occ c bank). apply histogram_in. rewrite Forall_forall in H. split; [apply H, Hin|]. split; [reflexivity|]. apply (count_occ_In Nat.eq_dec). exact Hin.
Qed.

(** ** Classes, repeated *)
Definition within (cs : charset) (w : list char) : Prop := Forall (fun c => cs_contains cs c = true) w.
Lemma power_class cs n : forall w, power (matches (CharClass cs)) n w <-> length w = n /\ within cs w.
Proof.
  induction n as [|n IH]; intros w; cbn [power].
  - unfold empty_string. split; [intros ->; split; [reflexivity|constructor]|]. intros [H _]. destruct w; [reflexivity|discriminate].
  - split.
    + intros (u & v & -> & (c & -> & Hc) & Hv). apply IH in Hv. destruct Hv as [H1 H2]. split; [cbn; lia|]. constructor; auto.
    + intros [H1 H2]. destruct w as [|c w]; [discriminate|]. inversion H2; subst. exists [c], w. split; [reflexivity|]. split; [exists c; auto|]. apply IH. split; [cbn in H1; lia|assumption].
Qed.
Lemma rep_class cs mn mx w : matches (Repetition (CharClass cs) mn mx) w <->
  mn <= length w /\ (forall m, mx = Some m -> length w <= m) /\ within cs w.
Proof.
  cbn [matches]. split.
  - intros (n & H1 & H2 & H3). apply power_class in H3. destruct H3 as [<- H3]. auto.
  - intros (H1 & H2 & H3). exists (length w). split; [exact H1|]. split; [exact H2|]. apply power_class. auto.
Qed.
Lemma many_class cs w : matches (many (CharClass cs)) w <-> within cs w.
Proof. unfold many. rewrite rep_class. split; [intros H; apply H|]. intros H. split; [lia|]. split; [discriminate|exact H]. Qed.
Lemma maybe_class cs w : matches (maybe (CharClass cs)) w <-> w = [] \/ exists c, w = [c] /\ cs_contains cs c = true.
Proof.
  unfold maybe. rewrite rep_class. split.
  - intros (_ & H & Hw). specialize (H 1 eq_refl). destruct w as [|c [|d w]]; [auto|right|cbn in H; lia]. exists c. inversion Hw; auto.
  - intros [->|(c & -> & Hc)]; (split; [lia|split; [intros m [= <-]; cbn; lia|]]); repeat constructor. exact Hc.
Qed.
Lemma exactly_class cs n w : matches (exactly (CharClass cs) n) w <-> length w = n /\ within cs w.
Proof.
  unfold exactly. rewrite rep_class. split; [intros (H1 & H2 & H3); specialize (H2 n eq_refl); split; [lia|exact H3]|].
  intros [H1 H2]. split; [lia|]. split; [intros m [= <-]; lia|exact H2].
Qed.

(** ** Filled sequences *)
Lemma spaced_0 fill x w : matches (spaced fill x 0) w <-> matches fill w.
Proof.
  unfold spaced. cbn [seq flat_map app matches map cats fold_right]. split.
  - intros (u & v & -> & H & Hv). unfold empty_string in Hv. subst v. rewrite app_nil_r. exact H.
  - intros H. exists w, []. rewrite app_nil_r. repeat split. exact H.
Qed.
Lemma flat_map_const {A} (x : list A) n : forall a, flat_map (fun _ : nat => x) (seq a n) = concat (repeat x n).
Proof. induction n as [|n IH]; intros a; [reflexivity|]. cbn [seq flat_map repeat concat]. rewrite IH. reflexivity. Qed.
Lemma spaced_S fill x n w : matches (spaced fill x (S n)) w <->
  exists u c v, w = u ++ c ++ v /\ matches fill u /\ matches x c /\ matches (spaced fill x n) v.
Proof.
  unfold spaced. rewrite !flat_map_const. cbn [matches repeat concat]. cbn [app map cats fold_right]. fold (cats (map matches (concat (repeat [fill; x] n) ++ [fill]))). split.
  - intros (u & v & -> & Hu & c & v' & -> & Hc & Hv). exists u, c, v'. auto.
  - intros (u & c & v & -> & Hu & Hc & Hv). exists u, (c ++ v). split; [reflexivity|]. split; [exact Hu|]. exists c, v. auto.
Qed.
Definition also (cs : charset) (ch : char) (w : list char) : Prop := Forall (fun c => cs_contains cs c = true \/ c = ch) w.
Lemma also_within cs ch w : within cs w -> also cs ch w.
Proof. intros H. eapply Forall_impl; [|exact H]. auto. Qed.
Lemma also_app cs ch u v : also cs ch (u ++ v) <-> also cs ch u /\ also cs ch v. Proof. apply Forall_app. Qed.
Lemma within_app cs u v : within cs (u ++ v) <-> within cs u /\ within cs v. Proof. apply Forall_app. Qed.
Lemma within_occ cs ch w : cs_contains cs ch = false -> within cs w -> occ ch w = 0.
Proof. intros H. induction 1 as [|c w Hc _ IH]; [reflexivity|]. rewrite occ_cons, IH. destruct (Nat.eqb_spec c ch); [congruence|reflexivity]. Qed.
Lemma also_split cs ch w : also cs ch w -> within cs w \/ exists u v, w = u ++ [ch] ++ v /\ within cs u /\ also cs ch v.
Proof.
  induction 1 as [|c w Hc Hw IH]; [left; constructor|]. destruct (cs_contains cs c) eqn:E.
  - destruct IH as [IH|(u & v & -> & Hu & Hv)]; [left; constructor; auto|]. right. exists (c :: u), v. split; [reflexivity|]. split; [constructor; auto|exact Hv].
  - destruct Hc as [Hc| ->]; [congruence|]. right. exists [], w. split; [reflexivity|]. split; [constructor|exact Hw].
Qed.
Lemma class_one ch c : matches (CharClass (charset_of ch)) c <-> c = [ch].
Proof.
  cbn [matches]. split.
  - intros (d & -> & H). rewrite cs_contains_mem, charset_of_mem in H. apply Nat.eqb_eq in H. congruence.
  - intros ->. exists ch. rewrite cs_contains_mem, charset_of_mem, Nat.eqb_refl. auto.
Qed.
(** Exactly [n] copies. *)
Lemma spaced_exact cs ch n : cs_contains cs ch = false -> forall w,
  matches (spaced (many (CharClass cs)) (CharClass (charset_of ch)) n) w <-> also cs ch w /\ occ ch w = n.
Proof.
  intros Hch. induction n as [|n IH]; intros w.
  - rewrite spaced_0, many_class. split; [intros H; split; [apply also_within; exact H|exact (within_occ _ _ _ Hch H)]|].
    intros [H E]. destruct (also_split _ _ _ H) as [G|(u & v & -> & _)]; [exact G|]. rewrite !occ_app, occ_cons, Nat.eqb_refl in E. lia.
  - rewrite spaced_S. split.
    + intros (u & c & v & -> & Hu & Hc & Hv). apply many_class in Hu. apply class_one in Hc. subst c. apply IH in Hv. destruct Hv as [Hv E].
      rewrite !also_app, !occ_app, occ_cons, Nat.eqb_refl, (within_occ _ _ _ Hch Hu), E. cbn [occ count_occ]. split; [|reflexivity].
      split; [apply also_within; exact Hu|]. split; [constructor; auto|exact Hv].
    + intros [H E]. destruct (also_split _ _ _ H) as [G|(u & v & -> & Hu & Hv)]; [rewrite (within_occ _ _ _ Hch G) in E; discriminate|].
      exists u, [ch], v. split; [reflexivity|]. split; [apply many_class; exact Hu|]. split; [apply class_one; reflexivity|]. apply IH. split; [exact Hv|].
      rewrite !occ_app, occ_cons, Nat.eqb_refl, (within_occ _ _ _ Hch Hu), occ_nil in E. lia.
Qed.
(** At most [n] copies. *)
Lemma spaced_atmost cs ch n : cs_contains cs ch = false -> forall w,
  matches (spaced (many (CharClass cs)) (maybe (CharClass (charset_of ch))) n) w <-> also cs ch w /\ occ ch w <= n.
Proof.
  intros Hch. induction n as [|n IH]; intros w.
  - rewrite spaced_0, many_class. split; [intros H; split; [apply also_within; exact H|rewrite (within_occ _ _ _ Hch H); lia]|].
    intros [H E]. destruct (also_split _ _ _ H) as [G|(u & v & -> & _)]; [exact G|]. rewrite !occ_app, occ_cons, Nat.eqb_refl in E. lia.
  - rewrite spaced_S. split.
    + intros (u & c & v & -> & Hu & Hc & Hv). apply many_class in Hu. apply IH in Hv. destruct Hv as [Hv E]. rewrite !also_app, !occ_app, (within_occ _ _ _ Hch Hu).
      assert (Hc' : also cs ch c /\ occ ch c <= 1).
      { apply maybe_class in Hc. destruct Hc as [->|(d & -> & Hd)]; [split; [constructor|cbn; lia]|]. rewrite cs_contains_mem, charset_of_mem in Hd. apply Nat.eqb_eq in Hd. subst d.
        split; [constructor; auto|]. rewrite occ_cons, Nat.eqb_refl, occ_nil. lia. }
      split; [|lia]. split; [apply also_within; exact Hu|]. split; [apply Hc'|exact Hv].
    + intros [H E]. destruct (also_split _ _ _ H) as [G|(u & v & -> & Hu & Hv)].
      * exists w, [], []. rewrite app_nil_r. split; [reflexivity|]. split; [apply many_class; exact G|]. split; [apply maybe_class; auto|]. apply IH. split; [constructor|cbn; lia].
      * exists u, [ch], v. split; [reflexivity|]. split; [apply many_class; exact Hu|]. split; [apply maybe_class; right; exists ch; rewrite cs_contains_mem, charset_of_mem, Nat.eqb_refl; auto|].
        apply IH. split; [exact Hv|]. rewrite !occ_app, occ_cons, Nat.eqb_refl, (within_occ _ _ _ Hch Hu), occ_nil in E. lia.
Qed.
(** At least [n] copies. *)
Lemma spaced_atleast cs ch n : cs_contains cs ch = true -> forall w,
  matches (spaced (many (CharClass cs)) (CharClass (charset_of ch)) n) w <-> within cs w /\ n <= occ ch w.
Proof.
  intros Hch. induction n as [|n IH]; intros w.
  - rewrite spaced_0, many_class. split; [intros H; split; [exact H|lia]|intros H; apply H].
  - rewrite spaced_S. split.
    + intros (u & c & v & -> & Hu & Hc & Hv). apply many_class in Hu. apply class_one in Hc. subst c. apply IH in Hv. destruct Hv as [Hv E].
      rewrite !within_app, !occ_app, occ_cons, Nat.eqb_refl. split; [|lia]. split; [exact Hu|]. split; [constructor; auto; constructor|exact Hv].
    + intros [H E]. assert (Hin : In ch w) by (apply (count_occ_In Nat.eq_dec); unfold occ in E; lia). apply in_split in Hin.
      assert (Hsp : exists u v, w = u ++ [ch] ++ v /\ occ ch u = 0).
      { clear -Hin. destruct Hin as (u & v & E). revert w v E. induction u as [|a u IH]; intros w v ->; [exists [], v; auto|].
        destruct (Nat.eqb_spec a ch) as [->|Hne]; [exists [], (u ++ ch :: v); auto|]. destruct (IH (u ++ ch :: v) v eq_refl) as (u' & v' & E & H0).
        exists (a :: u'), v'. cbn [app]. rewrite E. split; [reflexivity|]. rewrite occ_cons, H0. destruct (Nat.eqb_spec a ch); [congruence|reflexivity]. }
      destruct Hsp as (u & v & -> & H0). rewrite !within_app in H. destruct H as (Hu & _ & Hv). exists u, [ch], v. split; [reflexivity|]. split; [apply many_class; exact Hu|].
      split; [apply class_one; reflexivity|]. apply IH. split; [exact Hv|]. rewrite !occ_app, occ_cons, Nat.eqb_refl, occ_nil in E. lia.
Qed.

(** ** One block *)
Definition symbols (bank : list char) : Prop := Forall (fun c => c < CHAR_MAX) bank.
Definition part (k : anagram_kind) (bank : list char) (i : nat) : ast := ast_for_anagram k (histogram bank) i.

Lemma diff_mem s ch c : ch < 32 -> c < 32 -> cs_contains (cs_difference s (charset_of ch)) c = cs_contains s c && negb (ch =? c).
Proof.
  intros H1 H2. rewrite !cs_contains_mem. unfold cs_difference. unfold mem at 1. rewrite N.land_spec, N.lxor_spec. fold (mem s c). fold (mem (charset_of ch) c). rewrite charset_of_mem.
  rewrite N.ones_spec_low by lia. destruct (ch =? c); reflexivity.
Qed.
Lemma diff_sub s ch c : cs_contains (cs_difference s (charset_of ch)) c = true -> cs_contains s c = true.
Proof. rewrite !cs_contains_mem. unfold cs_difference. rewrite mem_land. intros H. apply andb_true_iff in H. apply H. Qed.
Lemma in_bank_lt bank c : symbols bank -> In c bank -> c < 28.
Proof. intros H Hc. unfold symbols in H. rewrite Forall_forall in H. exact (H c Hc). Qed.
Lemma bank_rest bank ch w : symbols bank -> In ch bank -> (also (cs_difference (bank_set (histogram bank)) (charset_of ch)) ch w <-> Forall (fun c => In c bank) w).
Proof.
  intros Hb Hch. assert (Hc := in_bank_lt bank ch Hb Hch). assert (Hs := fun c => bank_set_spec bank c Hb). revert Hs. generalize (bank_set (histogram bank)). intros s Hs.
  unfold also. rewrite !Forall_forall. split; intros H c Hin.
  - destruct (H c Hin) as [G| ->]; [|exact Hch]. apply Hs. exact (diff_sub _ _ _ G).
  - specialize (H c Hin). destruct (Nat.eq_dec c ch) as [->|Hne]; [auto|]. left. assert (c < 28) by exact (in_bank_lt bank c Hb H).
    rewrite diff_mem by lia. rewrite (proj2 (Hs c) H). destruct (Nat.eqb_spec ch c); [congruence|reflexivity].
Qed.
Lemma bank_rest_not bank ch : In ch bank -> symbols bank -> cs_contains (cs_difference (bank_set (histogram bank)) (charset_of ch)) ch = false.
Proof. intros Hin Hb. assert (Hc := in_bank_lt bank ch Hb Hin). rewrite diff_mem by lia. rewrite Nat.eqb_refl. apply andb_false_r. Qed.
Lemma within_bank bank w : symbols bank -> (within (bank_set (histogram bank)) w <-> Forall (fun c => In c bank) w).
Proof. intros Hb. unfold within. rewrite !Forall_forall. split; intros H c Hc; apply (bank_set_spec bank c Hb); apply H; exact Hc. Qed.
Lemma within_letters w : within LETTERS w <-> Forall (fun c => c < 26) w.
Proof. unfold within. rewrite !Forall_forall. split; intros H c Hc; specialize (H c Hc); rewrite cs_contains_mem, mem_LETTERS in *; apply Nat.ltb_lt; exact H. Qed.

(** What the parts say. *)
Definition letter_says (k : anagram_kind) (bank : list char) (ch : char) (w : list char) : Prop :=
  match k with
  | Standard => Forall (fun c => In c bank) w /\ occ ch w = occ ch bank
  | Sub | TransDelete _ => Forall (fun c => In c bank) w /\ occ ch w <= occ ch bank
  | Super | TransAdd _ => if ch <? 26 then Forall (fun c => c < 26) w /\ occ ch bank <= occ ch w
                          else Forall (fun c => c < 26 \/ c = ch) w /\ occ ch w = occ ch bank
  end.
Definition length_says (k : anagram_kind) (bank : list char) (w : list char) : Prop :=
  match k with
  | Standard => Forall (fun c => In c bank) w /\ length w = length bank
  | Sub => Forall (fun c => In c bank) w /\ length w <= length bank
  | TransDelete d => Forall (fun c => In c bank) w /\ length w = length bank - d
  | Super => Forall (fun c => c < 26) w /\ length bank <= length w
  | TransAdd a => Forall (fun c => c < 26) w /\ length w = length bank + a
  end.
Lemma letter_part k bank i ch n w : symbols bank -> nth_error (histogram bank) i = Some (ch, n) -> (matches (part k bank i) w <-> letter_says k bank ch w).
Proof.
  intros Hb Hi. unfold part, ast_for_anagram. rewrite Hi. assert (Hin : In (ch, n) (histogram bank)) by (eapply nth_error_In; eauto).
  apply histogram_in in Hin. destruct Hin as (_ & -> & Hn). assert (Hch : In ch bank) by (apply (count_occ_In Nat.eq_dec); exact Hn).
  unfold letter_constraint. destruct k as [| | |a|d]; cbn [letter_says].
  - rewrite spaced_exact by (apply bank_rest_not; assumption). rewrite bank_rest by assumption. reflexivity.
  - destruct (Nat.ltb_spec ch 26) as [Hl|Hl].
    + rewrite spaced_atleast by (rewrite cs_contains_mem, mem_LETTERS; apply Nat.ltb_lt; exact Hl). rewrite within_letters. reflexivity.
    + rewrite spaced_exact by (rewrite cs_contains_mem, mem_LETTERS; apply Nat.ltb_ge; exact Hl). unfold also. split; intros [H1 H2]; (split; [|exact H2]); eapply Forall_impl; try exact H1; cbn; intros c Hc; rewrite cs_contains_mem, mem_LETTERS, Nat.ltb_lt in *; exact Hc.
  - rewrite spaced_atmost by (apply bank_rest_not; assumption). rewrite bank_rest by assumption. reflexivity.
  - destruct (Nat.ltb_spec ch 26) as [Hl|Hl].
    + rewrite spaced_atleast by (rewrite cs_contains_mem, mem_LETTERS; apply Nat.ltb_lt; exact Hl). rewrite within_letters. reflexivity.
    + rewrite spaced_exact by (rewrite cs_contains_mem, mem_LETTERS; apply Nat.ltb_ge; exact Hl). unfold also. split; intros [H1 H2]; (split; [|exact H2]); eapply Forall_impl; try exact H1; cbn; intros c Hc; rewrite cs_contains_mem, mem_LETTERS, Nat.ltb_lt in *; exact Hc.
  - rewrite spaced_atmost by (apply bank_rest_not; assumption). rewrite bank_rest by assumption. reflexivity.
Qed.
Lemma length_part k bank i w : symbols bank -> length (histogram bank) <= i -> (matches (part k bank i) w <-> length_says k bank w).
Proof.
  intros Hb Hi. unfold part, ast_for_anagram. rewrite (proj2 (nth_error_None _ _) Hi). unfold length_constraint. rewrite (total_histogram bank Hb).
  destruct k as [| | |a|d]; cbn [length_says].
  - rewrite exactly_class, within_bank by exact Hb. split; intros [H1 H2]; auto.
  - rewrite rep_class, within_letters. split; [intros (H1 & _ & H2); auto|]. intros [H1 H2]. split; [exact H2|]. split; [discriminate|exact H1].
  - rewrite rep_class, within_bank by exact Hb. split; [intros (_ & H1 & H2); auto|]. intros [H1 H2]. split; [lia|]. split; [intros m [= <-]; exact H2|exact H1].
  - rewrite exactly_class, within_letters. split; intros [H1 H2]; auto.
  - rewrite exactly_class, within_bank by exact Hb. split; intros [H1 H2]; auto.
Qed.

(** The language of a block, with sub- and superbanks. *)
Lemma occ_in c w : 0 < occ c w <-> In c w.
Proof. symmetry. apply (count_occ_In Nat.eq_dec). Qed.
Lemma occ_le_in w bank : (forall c, occ c w <= occ c bank) -> Forall (fun c => In c bank) w.
Proof. intros H. apply Forall_forall. intros c Hc. apply occ_in. specialize (H c). apply occ_in in Hc. lia. Qed.
Lemma occ_le_length w bank : (forall c, occ c w <= occ c bank) -> length w <= length bank.
Proof. intros H. apply sub_multiset in H. destruct H as (rest & H). apply Permutation_length in H. rewrite app_length in H. lia. Qed.
Lemma occ_eq_length w bank : (forall c, occ c w = occ c bank) -> length w = length bank.
Proof. intros H. apply Permutation_length, occ_perm. exact H. Qed.

(** Every part accepts the whole language of the block. *)
Lemma part_sound k bank i w : symbols bank -> anagram_language k bank w -> matches (part k bank i) w.
Proof.
  intros Hb H. destruct (nth_error (histogram bank) i) as [[ch n]|] eqn:Ei.
  - apply (letter_part k bank i ch n w Hb Ei). assert (Hin : In (ch, n) (histogram bank)) by (eapply nth_error_In; eauto). apply histogram_in in Hin. destruct Hin as (_ & -> & Hn).
    destruct k as [| | |a|d]; cbn [anagram_language letter_says] in *.
    + split; [apply occ_le_in; intros c; rewrite H; lia|apply H].
    + destruct H as [H1 H2]. destruct (Nat.ltb_spec ch 26) as [Hl|Hl]; [split; [exact H2|apply H1]|]. exfalso. specialize (H1 ch). assert (Hin : In ch w) by (apply occ_in; lia).
      rewrite Forall_forall in H2. specialize (H2 ch Hin). lia.
    + split; [apply occ_le_in; exact H|apply H].
    + destruct H as (H1 & H2 & _). destruct (Nat.ltb_spec ch 26) as [Hl|Hl]; [split; [exact H2|apply H1]|]. exfalso. specialize (H1 ch). assert (Hin : In ch w) by (apply occ_in; lia).
      rewrite Forall_forall in H2. specialize (H2 ch Hin). lia.
    + destruct H as [H _]. split; [apply occ_le_in; exact H|apply H].
  - apply (length_part k bank i w Hb); [apply nth_error_None; exact Ei|]. destruct k as [| | |a|d]; cbn [anagram_language length_says] in *.
    + split; [apply occ_le_in; intros c; rewrite H; lia|apply occ_eq_length; exact H].
    + split; [apply H|apply occ_le_length; apply H].
    + split; [apply occ_le_in; exact H|apply occ_le_length; exact H].
    + split; apply H.
    + split; [apply occ_le_in; apply H|apply H].
Qed.
(** All parts together accept nothing else. *)
Lemma parts_exact k bank w : symbols bank -> (forall i, i <= length (histogram bank) -> matches (part k bank i) w) -> anagram_language k bank w.
Proof.
  intros Hb H. assert (HL := H (length (histogram bank)) (le_n _)). apply (length_part k bank _ w Hb (le_n _)) in HL.
  assert (Hc : forall ch, In ch bank -> letter_says k bank ch w).
  { intros ch Hch. assert (Hin : In (ch, occ ch bank) (histogram bank)).
    { apply histogram_in. split; [unfold symbols in Hb; rewrite Forall_forall in Hb; apply Hb, Hch|]. split; [reflexivity|]. apply occ_in. exact Hch. }
    apply In_nth_error in Hin. destruct Hin as (i & Hi). apply (letter_part k bank i ch _ w Hb Hi). apply H.
    assert (i < length (histogram bank)) by (apply nth_error_Some; congruence). lia. }
  assert (Hout : forall c, ~ In c bank -> occ c bank = 0). { intros c Hn. destruct (occ c bank) eqn:E; [reflexivity|]. exfalso. apply Hn, occ_in. lia. }
  assert (Hw0 : forall c, Forall (fun c => In c bank) w -> ~ In c bank -> occ c w = 0).
  { intros c HF Hn. destruct (occ c w) eqn:E; [reflexivity|]. exfalso. apply Hn. rewrite Forall_forall in HF. apply HF, occ_in. lia. }
  destruct k as [| | |a|d]; cbn [anagram_language length_says letter_says] in *.
  - intros c. destruct (in_dec Nat.eq_dec c bank) as [Hin|Hn]; [apply (Hc c Hin)|]. rewrite (Hout c Hn). apply Hw0; [apply HL|exact Hn].
  - split; [|apply HL]. intros c. destruct (in_dec Nat.eq_dec c bank) as [Hin|Hn]; [|rewrite (Hout c Hn); lia]. specialize (Hc c Hin). destruct (c <? 26); [apply Hc|]. destruct Hc as [_ ->]. lia.
  - intros c. destruct (in_dec Nat.eq_dec c bank) as [Hin|Hn]; [apply (Hc c Hin)|]. rewrite (Hw0 c); [lia|apply HL|exact Hn].
  - split; [|exact HL]. intros c. destruct (in_dec Nat.eq_dec c bank) as [Hin|Hn]; [|rewrite (Hout c Hn); lia]. specialize (Hc c Hin). destruct (c <? 26); [apply Hc|]. destruct Hc as [_ ->]. lia.
  - split; [|apply HL]. intros c. destruct (in_dec Nat.eq_dec c bank) as [Hin|Hn]; [apply (Hc c Hin)|]. rewrite (Hw0 c); [lia|apply HL|exact Hn].
Qed.
