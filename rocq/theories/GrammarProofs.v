(** The generated parser: more fuel changes nothing, and the fuel given is enough for every text. *)
From Verif Require Export Grammar.
Local Open Scope list_scope.

(** ** Fuel *)
Lemma pbind_mono (r r' : presult) k k' :
  (r <> PFuel -> r' = r) -> (forall t ns, k t ns <> PFuel -> k' t ns = k t ns) -> pbind r k <> PFuel -> pbind r' k' = pbind r k.
Proof.
  intros H1 H2 H. destruct r as [| |t ns]; cbn [pbind] in *; [rewrite H1 by discriminate; reflexivity|congruence|]. rewrite H1 by discriminate. cbn [pbind]. apply H2. exact H.
Qed.
Lemma peg_mono f : forall f' w at_ e t, f <= f' -> peg f w at_ e t <> PFuel -> peg f' w at_ e t = peg f w at_ e t.
Proof.
  induction f as [|f IH]; intros f' w at_ e t Hf H; [cbn in H; congruence|]. destruct f' as [|f']; [lia|].
  assert (IH' : forall at1 e1 t1, peg f w at1 e1 t1 <> PFuel -> peg f' w at1 e1 t1 = peg f w at1 e1 t1) by (intros; apply IH; [lia|assumption]).
  assert (Hs : forall t, (if at_ then PMatch t [] else peg f w true skip_exp t) <> PFuel ->
    (if at_ then PMatch t [] else peg f' w true skip_exp t) = (if at_ then PMatch t [] else peg f w true skip_exp t)).
  { intros t0. destruct at_; [reflexivity|apply IH']. }
  destruct e; cbn [peg] in *; try reflexivity.
  - apply pbind_mono; [apply IH'| |exact H]. intros t1 n1. apply pbind_mono; [apply Hs|]. intros t2 n2. apply pbind_mono; [apply IH'|]. reflexivity.
  - destruct (peg f w at_ e1 t) as [| |t1 n1] eqn:E; [|congruence|]; rewrite (IH' _ e1) by congruence; rewrite E; [apply IH'; exact H|reflexivity].
  - destruct (peg f w at_ e t) as [| |t1 n1] eqn:E; [|congruence|]; rewrite (IH' _ e) by congruence; rewrite E; reflexivity.
  - destruct (peg f w at_ e t) as [| |t1 n1] eqn:E; [|congruence|]; rewrite (IH' _ e) by congruence; rewrite E; [reflexivity|].
    apply pbind_mono; [apply IH'|reflexivity|exact H].
  - assert (Hb : pbind (if at_ then PMatch t [] else peg f w true skip_exp t) (fun t1 _ => peg f w at_ e t1) <> PFuel).
    { destruct (pbind (if at_ then PMatch t [] else peg f w true skip_exp t) (fun t1 _ => peg f w at_ e t1)); congruence. }
    rewrite (pbind_mono _ (if at_ then PMatch t [] else peg f' w true skip_exp t) _ (fun t1 _ => peg f' w at_ e t1) (Hs t) (fun t1 _ => IH' at_ e t1) Hb).
    destruct (pbind (if at_ then PMatch t [] else peg f w true skip_exp t) (fun t1 _ => peg f w at_ e t1)) as [| |t1 n1]; [reflexivity|congruence|].
    apply pbind_mono; [apply IH'|reflexivity|exact H].
  - apply pbind_mono; [apply IH'|reflexivity|exact H].
Qed.

(** ** Progress *)
Definition null_rule (r : rule) : bool :=
  match r with macro_value | empty_line | query | EOI => true | _ => false end.
Fixpoint nullable (e : pexp) : bool :=
  match e with
  | PStr s | PIns s => match s with [] => true | _ => false end
  | PRange _ _ | PAny => false
  | PSoi | PEoi | POpt _ | PRep _ | PMore _ => true
  | PSeq a b => nullable a && nullable b
  | PAlt a b => nullable a || nullable b
  | PRule r => null_rule r
  end.
Lemma null_rule_ok r : nullable (body r) = true -> null_rule r = true.
Proof. destruct r; reflexivity || (vm_compute; congruence). Qed.
Lemma strip_app s : forall t r, strip s t = Some r -> t = s ++ r.
Proof.
  induction s as [|a s IH]; intros t r H; [injection H as ->; reflexivity|]. destruct t as [|b t]; [discriminate|]. cbn [strip] in H.
  destruct (N.eqb_spec a b) as [->|]; [|discriminate]. cbn [app]. f_equal. apply IH. exact H.
Qed.
Lemma strip_ins_app s : forall t r, strip_ins s t = Some r -> exists p, t = p ++ r /\ length p = length s.
Proof.
  induction s as [|a s IH]; intros t r H; [injection H as ->; exists []; split; reflexivity|]. destruct t as [|b t]; [discriminate|]. cbn [strip_ins] in H.
  destruct (N.eqb (ascii_lower a) (ascii_lower b)); [|discriminate]. destruct (IH _ _ H) as (p & -> & Hp). exists (b :: p). cbn. split; [reflexivity|lia].
Qed.
Definition eaten (e : pexp) (t t1 : text) : Prop := exists p, t = p ++ t1 /\ (nullable e = false -> p <> []).
Lemma app_ne {A} (p q : list A) : p <> [] \/ q <> [] -> p ++ q <> [].
Proof. intros H E. apply app_eq_nil in E. destruct E as [-> ->], H; congruence. Qed.
Lemma peg_eats f : forall w at_ e t t1 ns, peg f w at_ e t = PMatch t1 ns -> eaten e t t1.
Proof.
  induction f as [|f IH]; intros w at_ e t t1 ns H; [discriminate|].
  assert (Hs : forall t t1 ns, (if at_ then PMatch t [] else peg f w true skip_exp t) = PMatch t1 ns -> exists p, t = p ++ t1).
  { intros t0 t2 ns2 E. destruct at_; [injection E as -> _; exists []; reflexivity|]. apply IH in E. destruct E as (p & E & _). exists p. exact E. }
  destruct e; cbn [peg] in H; unfold eaten; cbn [nullable].
  - destruct (strip s t) as [r|] eqn:E; [|discriminate]. injection H as -> _. apply strip_app in E. exists s. split; [exact E|]. destruct s; congruence.
  - destruct (strip_ins s t) as [r|] eqn:E; [|discriminate]. injection H as -> _. apply strip_ins_app in E. destruct E as (p & E & Hp). exists p. split; [exact E|]. destruct s; [congruence|]. intros _ ->. discriminate.
  - destruct t as [|c t]; [discriminate|]. destruct (in_range lo hi c); [|discriminate]. injection H as -> _. exists [c]. split; [reflexivity|congruence].
  - destruct t as [|c t]; [discriminate|]. injection H as -> _. exists [c]. split; [reflexivity|congruence].
  - destruct (length t =? w); [|discriminate]. injection H as -> _. exists []. split; [reflexivity|congruence].
  - destruct t as [|c t]; [|discriminate]. injection H as <- _. exists []. split; [reflexivity|congruence].
  - destruct (peg f w at_ e1 t) as [| |s1 n1] eqn:E1; try discriminate. cbn [pbind] in H.
    destruct (if at_ then PMatch s1 [] else peg f w true skip_exp s1) as [| |s2 n2] eqn:E2; try discriminate. cbn [pbind] in H.
    destruct (peg f w at_ e2 s2) as [| |s3 n3] eqn:E3; try discriminate. cbn [pbind] in H. injection H as -> _.
    apply IH in E1, E3. apply Hs in E2. destruct E1 as (p1 & -> & H1), E2 as (p2 & ->), E3 as (p3 & -> & H3).
    exists (p1 ++ p2 ++ p3). split; [rewrite !app_assoc; reflexivity|]. intros Hn. apply andb_false_iff in Hn. apply app_ne. destruct Hn as [Hn|Hn]; [left; auto|right; apply app_ne; right; auto].
  - destruct (peg f w at_ e1 t) as [| |s1 n1] eqn:E1; try discriminate.
    + apply IH in H. destruct H as (p & -> & Hp). exists p. split; [reflexivity|]. intros Hn. apply orb_false_iff in Hn. apply Hp, Hn.
    + injection H as -> _. apply IH in E1. destruct E1 as (p & -> & Hp). exists p. split; [reflexivity|]. intros Hn. apply orb_false_iff in Hn. apply Hp, Hn.
  - destruct (peg f w at_ e t) as [| |s1 n1] eqn:E1; try discriminate; injection H as -> _.
    + exists []. split; [reflexivity|congruence].
    + apply IH in E1. destruct E1 as (p & -> & _). exists p. split; [reflexivity|congruence].
  - destruct (peg f w at_ e t) as [| |s1 n1] eqn:E1; try discriminate; [injection H as -> _; exists []; split; [reflexivity|congruence]|].
    destruct (peg f w at_ (PMore e) s1) as [| |s2 n2] eqn:E2; try discriminate. cbn [pbind] in H. injection H as -> _.
    apply IH in E1, E2. destruct E1 as (p1 & -> & _), E2 as (p2 & -> & _). exists (p1 ++ p2). split; [rewrite !app_assoc; reflexivity|congruence].
  - destruct (if at_ then PMatch t [] else peg f w true skip_exp t) as [| |s0 n0] eqn:E0; cbn [pbind] in H; try discriminate; [injection H as -> _; exists []; split; [reflexivity|congruence]|].
    destruct (peg f w at_ e s0) as [| |s1 n1] eqn:E1; try discriminate; [injection H as -> _; exists []; split; [reflexivity|congruence]|].
    destruct (peg f w at_ (PMore e) s1) as [| |s2 n2] eqn:E2; try discriminate. cbn [pbind] in H. injection H as -> _.
    apply Hs in E0. apply IH in E1, E2. destruct E0 as (p0 & ->), E1 as (p1 & -> & _), E2 as (p2 & -> & _). exists (p0 ++ p1 ++ p2). split; [rewrite !app_assoc; reflexivity|congruence].
  - destruct (peg f w (at_ || atomic r) (body r) t) as [| |s1 n1] eqn:E1; try discriminate. cbn [pbind] in H. injection H as -> _.
    apply IH in E1. destruct E1 as (p & -> & Hp). exists p. split; [reflexivity|]. intros Hn. apply Hp. destruct (nullable (body r)) eqn:Hb; [|reflexivity]. apply null_rule_ok in Hb. congruence.
Qed.

(** ** Termination: how deep the recursion goes before a code point is consumed *)
Definition skip_rank : nat := 9.
(** a table of the ranks of the rules *)
Definition rule_rank (r : rule) : nat :=
  match r with
  | WHITESPACE => 2 | COMMENT => 5 | number => 14 | punctuation => 2 | whitespace => 2 | character => 6 | dot => 2
  | letter_range => 14 | r_invert => 2 | class => 14 | anagram_body => 14
  | anagram | superanagram | subanagram | transadd | transdelete | substring | r_subset | r_superset | group => 14
  | term => 28
  | repeat_optional | repeat_any | repeat_oneormore | repeat_atmost | repeat_exact | repeat_atleast | repeat_range => 30
  | r_repeat => 38
  | sequence => 41 | alternatives => 43 | subexpression => 45
  | option_word_boundaries | option_punctuation => 2 | option_fuzz => 14 | option_ => 17
  | r_expression => 60 | macro_name => 14 | macro_value => 3 | macro_define => 20
  | pragma_words | pragma_dict | pragma_limit => 14 | pragma_quiet | pragma_wordlist => 2 | pragma => 25
  | empty_line => 14 | query => 64 | EOI => 2
  end.
Fixpoint rank (at_ : bool) (e : pexp) : nat :=
  let skip := if at_ then 0 else skip_rank in
  match e with
  | PSeq a b => S (Nat.max (rank at_ a) (Nat.max skip (if nullable a then rank at_ b else 0)))
  | PAlt a b => S (Nat.max (rank at_ a) (rank at_ b))
  | POpt a => S (rank at_ a)
  | PRep a => S (rank at_ a)
  | PMore a => S (Nat.max skip (rank at_ a))
  | PRule r => rule_rank r
  | _ => 1
  end.
Definition K : nat := 100.
Fixpoint fine (e : pexp) : bool :=
  match e with
  | PSeq a b => fine a && fine b && (rank false b <=? K)
  | PAlt a b => fine a && fine b
  | POpt a => fine a
  | PRep a | PMore a => fine a && (rank false (PMore a) <=? K) && negb (nullable a)
  | _ => true
  end.
Lemma body_fine r : fine (body r) = true /\ rank (atomic r) (body r) < rule_rank r.
Proof. destruct r; (split; [vm_compute; reflexivity|vm_compute; lia]). Qed.
Lemma skip_fine : fine skip_exp = true /\ rank true skip_exp <= skip_rank.
Proof. split; vm_compute; [reflexivity|lia]. Qed.
Lemma rank_atomic e : rank true e <= rank false e.
Proof. induction e; cbn [rank]; cbv zeta; try lia. destruct (nullable e1); lia. Qed.
Lemma rank_le at_ at' e : (at' = true -> at_ = true) -> rank at_ e <= rank at' e.
Proof. intros H. destruct at_, at'; try apply Nat.le_refl; [apply rank_atomic|specialize (H eq_refl); discriminate]. Qed.
Lemma rank_pos at_ e : 1 <= rank at_ e.
Proof. destruct e; cbn [rank]; try lia. destruct (body_fine r) as [_ H]. lia. Qed.
Lemma pbind_fuel r k : r <> PFuel -> (forall t ns, r = PMatch t ns -> k t ns <> PFuel) -> pbind r k <> PFuel.
Proof. intros H1 H2. destruct r as [| |t ns]; cbn [pbind]; [discriminate|congruence|]. apply H2. reflexivity. Qed.
Lemma peg_enough f : forall w at_ e t, fine e = true -> rank at_ e + K * length t <= f -> peg f w at_ e t <> PFuel.
Proof.
  assert (HK : forall n, K * n = 100 * n) by reflexivity. induction f as [|f IH]; intros w at_ e t He Hf; [pose proof (rank_pos at_ e); lia|]. rewrite HK in Hf.
  assert (IH0 := IH). clear IH. assert (IH : forall w at_ e t, fine e = true -> rank at_ e + 100 * length t <= f -> peg f w at_ e t <> PFuel) by (intros; apply IH0; [assumption|rewrite HK; assumption]). clear IH0.
  assert (Hs : forall t0, (if at_ then 0 else skip_rank) + 100 * length t0 <= f -> (if at_ then PMatch t0 [] else peg f w true skip_exp t0) <> PFuel).
  { intros t0 H0. destruct at_; [discriminate|]. destruct skip_fine as [F R]. apply IH; [exact F|]. lia. }
  assert (Hse : forall t0 t1 ns, (if at_ then PMatch t0 [] else peg f w true skip_exp t0) = PMatch t1 ns -> length t1 <= length t0).
  { intros t0 t1 ns E. destruct at_; [injection E as -> _; lia|]. apply peg_eats in E. destruct E as (p & -> & _). rewrite app_length. lia. }
  destruct e; cbn [peg fine rank] in *.
  - destruct (strip s t); discriminate.
  - destruct (strip_ins s t); discriminate.
  - destruct t as [|c t]; [discriminate|]. destruct (in_range lo hi c); discriminate.
  - destruct t; discriminate.
  - destruct (length t =? w); discriminate.
  - destruct t; discriminate.
  - apply andb_true_iff in He. destruct He as [He Hb]. apply andb_true_iff in He. destruct He as [H1 H2]. apply Nat.leb_le in Hb. change K with 100 in Hb.
    pose proof (rank_le at_ false e2 ltac:(discriminate)) as Hr2.
    apply pbind_fuel; [apply IH; [exact H1|lia]|]. intros t1 n1 E1. apply peg_eats in E1. destruct E1 as (p & -> & Hp). rewrite app_length in Hf.
    apply pbind_fuel; [apply Hs; lia|]. intros t2 n2 E2. apply Hse in E2.
    apply pbind_fuel; [|discriminate]. apply IH; [exact H2|]. destruct (nullable e1); [lia|]. specialize (Hp eq_refl). destruct p as [|c p]; [congruence|]. cbn [length] in Hf. lia.
  - apply andb_true_iff in He. destruct He as [H1 H2]. assert (G1 : peg f w at_ e1 t <> PFuel) by (apply IH; [exact H1|lia]).
    destruct (peg f w at_ e1 t) as [| |t1 n1]; [apply IH; [exact H2|lia]|congruence|discriminate].
  - assert (G1 : peg f w at_ e t <> PFuel) by (apply IH; [exact He|lia]). destruct (peg f w at_ e t) as [| |t1 n1]; [discriminate|congruence|discriminate].
  - assert (Hm : fine (PMore e) = true) by exact He. apply andb_true_iff in He. destruct He as [He Hn]. apply negb_true_iff in Hn. apply andb_true_iff in He. destruct He as [H1 Hb]. apply Nat.leb_le in Hb. change K with 100 in Hb.
    pose proof (rank_le at_ false (PMore e) ltac:(discriminate)) as Hr.
    assert (G1 : peg f w at_ e t <> PFuel) by (apply IH; [exact H1|lia]). destruct (peg f w at_ e t) as [| |t1 n1] eqn:E1; [discriminate|congruence|].
    apply peg_eats in E1. destruct E1 as (p & -> & Hp). rewrite app_length in Hf. specialize (Hp Hn). destruct p as [|c p]; [congruence|]. cbn [length] in Hf.
    apply pbind_fuel; [|discriminate]. apply IH; [exact Hm|]. cbn [rank] in *. lia.
  - assert (Hm : fine (PMore e) = true) by exact He.
    apply andb_true_iff in He. destruct He as [He Hn]. apply negb_true_iff in Hn. apply andb_true_iff in He. destruct He as [H1 Hb]. apply Nat.leb_le in Hb. change K with 100 in Hb.
    pose proof (rank_le at_ false (PMore e) ltac:(discriminate)) as Hr. cbn [rank] in Hr.
    assert (G0 : pbind (if at_ then PMatch t [] else peg f w true skip_exp t) (fun t1 _ => peg f w at_ e t1) <> PFuel).
    { apply pbind_fuel; [apply Hs; lia|]. intros t1 n1 E1. apply Hse in E1. apply IH; [exact H1|lia]. }
    destruct (if at_ then PMatch t [] else peg f w true skip_exp t) as [| |t0 n0] eqn:E0; cbn [pbind] in *; [discriminate|congruence|]. apply Hse in E0.
    destruct (peg f w at_ e t0) as [| |t1 n1] eqn:E1; [discriminate|congruence|].
    apply peg_eats in E1. destruct E1 as (p & -> & Hp). rewrite app_length in E0. specialize (Hp Hn). destruct p as [|c p]; [congruence|]. cbn [length] in E0.
    apply pbind_fuel; [|discriminate]. apply IH; [exact Hm|]. cbn [rank]. lia.
  - apply pbind_fuel; [|discriminate]. destruct (body_fine r) as [F R]. apply IH; [exact F|].
    assert (rank (at_ || atomic r) (body r) <= rank (atomic r) (body r)) by (apply rank_le; intros ->; apply orb_true_r). lia.
Qed.
Lemma parse_terminates r t : parse_rule r t <> PFuel.
Proof.
  unfold parse_rule, parse_fuel. apply peg_enough; [reflexivity|]. cbn [rank]. assert (rule_rank r <= 64) by (destruct r; cbn; lia). unfold K. lia.
Qed.
