(** A comment at the end of a line changes nothing. *)
From Coq Require Import String.
From Verif Require Export PegProofs ParserProofs.
Local Open Scope list_scope.

(** ** Numbers *)
Fixpoint take_digits (t : text) : text * text :=
  match t with
  | c :: t' => if is_digit c then let (d, r) := take_digits t' in (c :: d, r) else ([], t)
  | [] => ([], [])
  end.
Lemma run_digits_more w t : prun w true (PMore ASCII_DIGIT) t = PMatch (snd (take_digits t)) [].
Proof.
  induction t as [|c t IH]; rewrite more_eq by reflexivity; cbn [skipped]; unfold ASCII_DIGIT at 1; rewrite run_range; [reflexivity|]. cbn [take_digits]. unfold is_digit at 1.
  destruct (in_range 48 57 c); [|reflexivity]. rewrite IH. destruct (take_digits t). reflexivity.
Qed.
Lemma take_digits_app t : fst (take_digits t) ++ snd (take_digits t) = t.
Proof. induction t as [|c t IH]; [reflexivity|]. cbn [take_digits]. destruct (is_digit c); [|reflexivity]. destruct (take_digits t) as [d r]. cbn [fst snd app] in *. congruence. Qed.
Lemma consumed_app p r : consumed (p ++ r) r = p.
Proof. unfold consumed. rewrite app_length. replace (length p + length r - length r) with (length p) by lia. rewrite firstn_app, Nat.sub_diag, firstn_O, app_nil_r. apply firstn_all. Qed.
Lemma run_number w at_ t : prun w at_ (PRule number) t =
  match fst (take_digits t) with [] => PFail | d => PMatch (snd (take_digits t)) [Node number d []] end.
Proof.
  rewrite run_rule. cbn [body atomic silent]. rewrite orb_true_r. unfold PPlus. rewrite seq_eq by reflexivity. unfold ASCII_DIGIT at 1. rewrite run_range.
  destruct t as [|c t]; [reflexivity|]. pose proof (take_digits_app (c :: t)) as Hd. cbn [take_digits] in *. unfold is_digit in *. destruct (in_range 48 57 c) eqn:E; [|reflexivity].
  cbn [pbind skipped]. assert (Hr : prun w true (PRep ASCII_DIGIT) t = PMatch (snd (take_digits t)) []).
  { rewrite run_rep by reflexivity. unfold ASCII_DIGIT at 1. rewrite run_range. destruct t as [|c' t]; [reflexivity|]. cbn [take_digits]. unfold is_digit at 1. destruct (in_range 48 57 c'); [|reflexivity]. rewrite run_digits_more. destruct (take_digits t). reflexivity. }
  rewrite Hr. destruct (take_digits t) as [d r]. cbn [fst snd pbind app] in *. rewrite <- Hd. change (c :: d ++ r) with ((c :: d) ++ r). rewrite consumed_app. reflexivity.
Qed.

(** ** Two texts that differ in a comment at the end *)
Section comment.
Variable k : N.
Variable c : text.
Hypothesis Hk : k = 47%N \/ k = 45%N.
Hypothesis Hc : c <> [].
Let cm : text := k :: k :: c.
Definition bad (a : N) : bool := N.eqb a 47 || N.eqb a 45.
Lemma bad_k : bad k = true. Proof. destruct Hk as [-> | ->]; reflexivity. Qed.
(** the last code point is not that of the mark, the last two are not a mark themselves *)
Definition end_ok (t : text) : Prop := forall p a, t = p ++ [a] -> a <> k /\ forall p', p = p' ++ [a] -> bad a = false.
Lemma end_suffix p t : end_ok (p ++ t) -> end_ok t.
Proof. intros H q a ->. destruct (H (p ++ q) a) as [H1 H2]; [rewrite app_assoc; reflexivity|]. split; [exact H1|]. intros p' ->. apply (H2 (p ++ p')). rewrite app_assoc. reflexivity. Qed.
Lemma end_nil : end_ok []. Proof. intros p a H. destruct p; discriminate. Qed.
Definition after (t t' : text) : Prop := end_ok t /\ (t' = t ++ cm \/ (t = [] /\ t' = [])).
Definition fresh (t t' : text) : Prop := end_ok t /\ ((t <> [] /\ t' = t ++ cm) \/ (t = [] /\ t' = [])).
Lemma fresh_after t t' : fresh t t' -> after t t'.
Proof. intros [H [[_ E]|E]]; split; auto. Qed.
Lemma drop_spaces_suffix t : exists p, t = p ++ drop_spaces t.
Proof. induction t as [|a t (p & IH)]; [exists []; reflexivity|]. cbn [drop_spaces]. destruct (N.eqb a 32); [exists (a :: p); cbn [app]; congruence|exists []; reflexivity]. Qed.
Lemma drop_cm t : drop_spaces (t ++ cm) = drop_spaces t ++ cm.
Proof.
  induction t as [|a t IH]; [cbn [app drop_spaces]; unfold cm; cbn [drop_spaces]; destruct Hk as [-> | ->]; reflexivity|]. cbn [app drop_spaces]. destruct (N.eqb a 32); [exact IH|reflexivity].
Qed.
Lemma comment_cm t : end_ok t -> t <> [] -> comment_at (t ++ cm) = comment_at t.
Proof.
  intros He Ht. destruct t as [|a t]; [congruence|].
  destruct t as [|b t].
  - destruct (He [] a eq_refl) as [Ha _]. unfold cm. destruct c as [|c0 c']; [congruence|]. cbn [app comment_at]. destruct Hk as [E|E]; rewrite E in Ha |- *; apply N.eqb_neq in Ha; rewrite Ha; cbn [N.eqb Pos.eqb andb orb]; rewrite ?andb_false_r; reflexivity.
  - destruct t as [|d t]; [|reflexivity]. cbn [app cm comment_at]. destruct (He [a] b eq_refl) as [_ Hb]. destruct (N.eqb_spec a b) as [->|Hab].
    + specialize (Hb [] eq_refl). unfold bad in Hb. apply orb_false_iff in Hb. destruct Hb as [E1 E2]. rewrite E1, E2. reflexivity.
    + destruct (N.eqb_spec a 47), (N.eqb_spec b 47), (N.eqb_spec a 45), (N.eqb_spec b 45); cbn [andb orb]; try reflexivity; congruence.
Qed.
Lemma comment_itself : comment_at cm = true.
Proof. unfold cm. destruct c as [|c0 c']; [congruence|]. cbn [comment_at]. destruct Hk as [-> | ->]; reflexivity. Qed.
Lemma skip_fresh t t' : after t t' -> fresh (skip_text t) (skip_text t').
Proof.
  intros [He [->|[-> ->]]]; [|split; [apply end_nil|right; split; reflexivity]]. unfold skip_text. rewrite drop_cm. destruct (drop_spaces_suffix t) as (p & E).
  assert (Hd : end_ok (drop_spaces t)) by (rewrite E in He; apply end_suffix in He; exact He). destruct (drop_spaces t) as [|a r] eqn:Er.
  - cbn [app]. rewrite comment_itself. split; [apply end_nil|right; split; reflexivity].
  - rewrite comment_cm by (auto; discriminate). destruct (comment_at (a :: r)); [split; [apply end_nil|right; split; reflexivity]|]. split; [exact Hd|]. left. split; [discriminate|reflexivity].
Qed.

(** ** Tokens *)
Definition bad_tail (s : text) : bool := match s with [] => false | [a] => bad a | a :: b :: _ => bad a && bad b end.
Fixpoint no_bad (s : text) : bool := match s with [] => true | a :: s' => negb (bad_tail s) && no_bad s' end.
Definition tok_ok (s : text) : bool := match s with [] => false | _ :: s' => no_bad s' end.
Lemma strip_tail s : no_bad s = true -> s <> [] -> strip s cm = None.
Proof.
  intros H Hs. destruct s as [|a [|b s]]; [congruence| |]; cbn [no_bad bad_tail] in H; apply andb_true_iff in H; destruct H as [H _]; apply negb_true_iff in H; unfold cm; cbn [strip].
  - destruct (N.eqb_spec a k) as [->|]; [rewrite bad_k in H; discriminate|reflexivity].
  - destruct (N.eqb_spec a k) as [->|]; [|reflexivity]. rewrite bad_k in H. cbn [andb] in H. destruct (N.eqb_spec b k) as [->|]; [rewrite bad_k in H; discriminate|reflexivity].
Qed.
Lemma strip_cm' s : no_bad s = true -> forall t, strip s (t ++ cm) = match strip s t with Some r => Some (r ++ cm) | None => None end.
Proof.
  induction s as [|a s IH]; intros H t; [reflexivity|]. destruct t as [|b t]; [cbn [app]; rewrite strip_tail by (auto; discriminate); reflexivity|].
  cbn [app strip]. destruct (N.eqb a b); [|reflexivity]. apply IH. cbn [no_bad] in H. apply andb_true_iff in H. apply H.
Qed.
Lemma strip_cm s t : tok_ok s = true -> t <> [] -> strip s (t ++ cm) = match strip s t with Some r => Some (r ++ cm) | None => None end.
Proof. intros H Ht. destruct s as [|a s]; [discriminate|]. destruct t as [|b t]; [congruence|]. cbn [app strip]. destruct (N.eqb a b); [|reflexivity]. apply strip_cm'. exact H. Qed.
Lemma lower_k a : ascii_lower a = ascii_lower k -> a = k.
Proof.
  unfold ascii_lower. replace (in_range 65 90 k) with false by (destruct Hk as [-> | ->]; reflexivity). destruct (in_range 65 90 a) eqn:E; [|auto]. intros G. exfalso.
  unfold in_range in E. apply andb_true_iff in E. destruct E as [A B]. apply N.leb_le in A, B. destruct Hk as [-> | ->]; lia.
Qed.
Lemma strip_ins_tail s : no_bad s = true -> s <> [] -> strip_ins s cm = None.
Proof.
  intros H Hs. destruct s as [|a [|b s]]; [congruence| |]; cbn [no_bad bad_tail] in H; apply andb_true_iff in H; destruct H as [H _]; apply negb_true_iff in H; unfold cm; cbn [strip_ins].
  - destruct (N.eqb_spec (ascii_lower a) (ascii_lower k)) as [G|]; [apply lower_k in G; subst a; rewrite bad_k in H; discriminate|reflexivity].
  - destruct (N.eqb_spec (ascii_lower a) (ascii_lower k)) as [G|]; [|reflexivity]. apply lower_k in G. subst a. rewrite bad_k in H. cbn [andb] in H. destruct (N.eqb_spec (ascii_lower b) (ascii_lower k)) as [G|]; [apply lower_k in G; subst b; rewrite bad_k in H; discriminate|reflexivity].
Qed.
Lemma strip_ins_cm' s : no_bad s = true -> forall t, strip_ins s (t ++ cm) = match strip_ins s t with Some r => Some (r ++ cm) | None => None end.
Proof.
  induction s as [|a s IH]; intros H t; [reflexivity|]. destruct t as [|b t]; [cbn [app]; rewrite strip_ins_tail by (auto; discriminate); reflexivity|].
  cbn [app strip_ins]. destruct (N.eqb (ascii_lower a) (ascii_lower b)); [|reflexivity]. apply IH. cbn [no_bad] in H. apply andb_true_iff in H. apply H.
Qed.
Lemma strip_ins_cm s t : tok_ok s = true -> t <> [] -> strip_ins s (t ++ cm) = match strip_ins s t with Some r => Some (r ++ cm) | None => None end.
Proof. intros H Ht. destruct s as [|a s]; [discriminate|]. destruct t as [|b t]; [congruence|]. cbn [app strip_ins]. destruct (N.eqb (ascii_lower a) (ascii_lower b)); [|reflexivity]. apply strip_ins_cm'. exact H. Qed.
Lemma digits_cm t : take_digits (t ++ cm) = (fst (take_digits t), snd (take_digits t) ++ cm).
Proof.
  induction t as [|a t IH]; [unfold cm; cbn [app take_digits]; destruct Hk as [-> | ->]; reflexivity|]. cbn [app take_digits]. destruct (is_digit a); [|reflexivity]. rewrite IH. destruct (take_digits t). reflexivity.
Qed.

(** ** Nodes *)
Definition text_matters (r : rule) : bool :=
  match r with number | character | letter_range | anagram_body | macro_name | macro_value => true | _ => false end.
Inductive same : node -> node -> Prop :=
| same_node r t t' l l' : (text_matters r = true -> t = t') -> Forall2 same l l' -> same (Node r t l) (Node r t' l').

(** may its nodes have a longer text when the end is reached? *)
Fixpoint loose (e : pexp) : bool :=
  match e with
  | PSeq a b => loose b
  | PAlt a b => loose a || loose b
  | POpt a | PRep a | PMore a => loose a
  | PRule anagram_body | PRule macro_name => true
  | _ => false
  end.
(** does it never run into the comment? *)
Fixpoint tight (e : pexp) : bool :=
  match e with
  | PStr _ | PIns _ | PRange _ _ => true
  | PSeq a b => tight a && tight b && negb (nullable b)
  | PAlt a b => tight a && tight b
  | POpt a | PRep a | PMore a => tight a
  | PRule r => match r with number | character | letter_range | macro_value | dot | punctuation | whitespace => true | _ => false end
  | _ => false
  end.
Definition blind_rule (r : rule) : bool :=
  match r with WHITESPACE | COMMENT | pragma | macro_define | r_expression | empty_line | query | EOI => false | _ => true end.
Fixpoint blind (e : pexp) : bool :=
  match e with
  | PStr s | PIns s => tok_ok s
  | PRange _ _ | PEoi => true
  | PAny | PSoi => false
  | PSeq a b => blind a && blind b && negb (loose a && nullable b)
  | PAlt a b => blind a && blind b
  | POpt a => blind a && negb (loose a)
  | PRep a | PMore a => blind a && negb (loose a) && negb (nullable a)
  | PRule r => blind_rule r
  end.
Lemma body_blind r : blind_rule r = true -> r <> number ->
  blind (body r) = true /\ loose (body r) = false /\ (tight (PRule r) = true -> tight (body r) = true) /\
  (text_matters r = true -> r = anagram_body \/ r = macro_name \/ tight (body r) = true) /\ atomic r = false.
Proof. intros H Hn. destruct r; try discriminate H; try congruence; (split; [reflexivity|]; split; [reflexivity|]; split; [intros G; try discriminate G; reflexivity|]; split; [intros G; try discriminate G; auto|reflexivity]). Qed.

Definition pre (e : pexp) (t t' : text) : Prop := match e with PMore _ => after t t' | _ => fresh t t' end.
Definition goes (e : pexp) (t t' : text) (r r' : presult) : Prop :=
  match r, r' with
  | PFail, PFail => True
  | PMatch t1 ns, PMatch t1' ns' =>
      end_ok t1 /\ ((t1' = t1 ++ cm /\ Forall2 same ns ns') \/ (t1 = [] /\ t1' = [] /\ (loose e = true \/ Forall2 same ns ns'))) /\
      (tight e = true -> t' = t ++ cm -> t1' = t1 ++ cm)
  | _, _ => False
  end.
Lemma goes_after e t t' t1 ns t1' ns' : goes e t t' (PMatch t1 ns) (PMatch t1' ns') -> after t1 t1'.
Proof. intros (H & [[E _]|(E1 & E2 & _)] & _); split; auto. Qed.
Lemma same_app a b a' b' : Forall2 same a a' -> Forall2 same b b' -> Forall2 same (a ++ b) (a' ++ b').
Proof. intros H1 H2. apply Forall2_app; assumption. Qed.
Lemma fresh_stuck (t t' : text) e w : t = [] -> t' = [] -> nullable e = false -> fine e = true -> prun w false e t' = PFail.
Proof.
  intros _ -> Hn Hf. destruct (prun w false e []) as [| |t1 ns] eqn:E; [reflexivity|destruct (prun_fuel _ _ _ _ Hf E)|]. apply peg_eats in E. destruct E as (p & E & Hp). symmetry in E. apply app_eq_nil in E. destruct E as [-> _]. destruct (Hp Hn eq_refl).
Qed.
Lemma peg_stuck f w at_ e : nullable e = false -> peg f w at_ e [] <> PFuel -> peg f w at_ e [] = PFail.
Proof.
  intros Hn Hf. destruct (peg f w at_ e []) as [| |t1 ns] eqn:E; [reflexivity|congruence|]. apply peg_eats in E. destruct E as (p & E & Hp). symmetry in E. apply app_eq_nil in E. destruct E as [-> _]. destruct (Hp Hn eq_refl).
Qed.
Lemma peg_skip f w t r : peg f w true skip_exp t = r -> r <> PFuel -> r = PMatch (skip_text t) [].
Proof. intros <- H. rewrite (peg_prun f w true skip_exp t (proj1 skip_fine) H). exact (run_skip_text w false t). Qed.

Lemma fresh_pre e t t' : fresh t t' -> pre e t t'.
Proof. intros H. destruct e; try exact H. apply fresh_after. exact H. Qed.
Lemma pre_after e t t' : pre e t t' -> after t t'.
Proof. intros H. destruct e; try exact H; apply fresh_after; exact H. Qed.
Lemma pre_ok e t t' : pre e t t' -> end_ok t.
Proof. intros H. apply pre_after in H. apply H. Qed.
Lemma pre_self e t t' : pre e t t' -> t' = t ++ cm \/ t = [] /\ t' = [].
Proof. intros H. apply pre_after in H. apply H. Qed.
Lemma goes_weaken e e' t t' r r' : (loose e = true -> loose e' = true) -> (tight e' = true -> tight e = true) -> goes e t t' r r' -> goes e' t t' r r'.
Proof.
  intros Hl Ht. destruct r as [| |t1 ns], r' as [| |t1' ns']; cbn [goes]; auto. intros (H1 & H2 & H3). split; [exact H1|]. split; [|auto].
  destruct H2 as [H2|(A & B & [C|C])]; [left; exact H2|right; auto|right; auto].
Qed.
Lemma goes_same e t t' t1 ns t1' ns' : goes e t t' (PMatch t1 ns) (PMatch t1' ns') -> Forall2 same ns ns' \/ (t1 = [] /\ t1' = [] /\ loose e = true).
Proof. intros (H & [[E S]|(E1 & E2 & [L|S])] & _); auto. Qed.
Lemma goes_make e t t' t1 ns t1' ns' : after t1 t1' -> Forall2 same ns ns' \/ (t1 = [] /\ t1' = [] /\ loose e = true) ->
  (tight e = true -> t' = t ++ cm -> t1' = t1 ++ cm) -> goes e t t' (PMatch t1 ns) (PMatch t1' ns').
Proof. intros [H1 [E|[E1 E2]]] H2 H3; (split; [exact H1|]; split; [|exact H3]); destruct H2 as [S|(A & B & L)]; subst; auto. Qed.
Lemma not_empty_match f w at_ e t1 ns : nullable e = false -> peg f w at_ e [] = PMatch t1 ns -> False.
Proof. intros Hn E. assert (G : peg f w at_ e [] <> PFuel) by congruence. rewrite (peg_stuck f w at_ e Hn G) in E. discriminate. Qed.
Lemma fresh_cases t t' : fresh t t' -> t' = t ++ cm \/ t = [] /\ t' = [].
Proof. intros [_ [[_ H]|H]]; auto. Qed.

Lemma consumed_same t t1 : consumed (t ++ cm) (t1 ++ cm) = firstn (length t - length t1) (t ++ cm).
Proof. unfold consumed. rewrite !app_length. f_equal. lia. Qed.
Lemma consumed_cm t t1 : length t1 <= length t -> consumed (t ++ cm) (t1 ++ cm) = consumed t t1.
Proof. intros H. rewrite consumed_same. unfold consumed. rewrite firstn_app. replace (length t - length t1 - length t) with 0 by lia. rewrite firstn_O, app_nil_r. reflexivity. Qed.

Lemma simulate f : forall w w' e t t' r, blind e = true -> fine e = true -> pre e t t' -> peg f w false e t = r -> r <> PFuel -> goes e t t' r (prun w' false e t').
Proof.
  induction f as [|f IH]; intros w w' e t t' r Hb Hf Hp E Hr; [cbn [peg] in E; congruence|].
  destruct e as [s|s|lo hi| | | |a b|a b|a|a|a|r0]; cbn [peg] in E.
  - (* PStr *) cbn [blind] in Hb. rewrite run_str. subst r. destruct (fresh_cases _ _ Hp) as [E'|[-> ->]].
    + destruct Hp as [He [[Ht _]|[-> ->]]]; [|unfold cm in E'; discriminate E']. subst t'. rewrite strip_cm by assumption. destruct (strip s t) as [t1|] eqn:E; [|exact I].
      apply goes_make; [|left; constructor|reflexivity]. split; [|left; reflexivity]. apply strip_app in E. rewrite E in He. apply end_suffix in He. exact He.
    + destruct s; [discriminate Hb|]. exact I.
  - cbn [blind] in Hb. rewrite run_ins. subst r. destruct (fresh_cases _ _ Hp) as [E'|[-> ->]].
    + destruct Hp as [He [[Ht _]|[-> ->]]]; [|unfold cm in E'; discriminate E']. subst t'. rewrite strip_ins_cm by assumption. destruct (strip_ins s t) as [t1|] eqn:E; [|exact I].
      apply goes_make; [|left; constructor|reflexivity]. split; [|left; reflexivity]. apply strip_ins_app in E. destruct E as (q & E & _). rewrite E in He. apply end_suffix in He. exact He.
    + destruct s; [discriminate Hb|]. exact I.
  - rewrite run_range. subst r. destruct Hp as [He [[Ht ->]|[-> ->]]]; [|exact I]. destruct t as [|x t]; [congruence|]. cbn [app]. destruct (in_range lo hi x); [|exact I].
    apply goes_make; [|left; constructor|reflexivity]. split; [|left; reflexivity]. apply (end_suffix [x]). exact He.
  - discriminate Hb.
  - discriminate Hb.
  - rewrite run_eoi. subst r. destruct Hp as [He [[Ht ->]|[-> ->]]]; [destruct t; [congruence|exact I]|]. apply goes_make; [split; [apply end_nil|right; auto]|left; repeat constructor|discriminate].
  - (* PSeq *) cbn [blind] in Hb. apply andb_true_iff in Hb. destruct Hb as [Hb Hl]. apply andb_true_iff in Hb. destruct Hb as [Ha Hb]. apply negb_true_iff in Hl.
    pose proof Hf as Hf'. cbn [fine] in Hf'. apply andb_true_iff in Hf'. destruct Hf' as [Hf' _]. apply andb_true_iff in Hf'. destruct Hf' as [Fa Fb].
    rewrite seq_eq by exact Hf. destruct (peg f w false a t) as [| |t1 n1] eqn:Ea; cbn [pbind] in E; [|congruence|].
    + assert (G : goes a t t' PFail (prun w' false a t')) by (apply (IH w w' a t t' PFail Ha Fa (fresh_pre _ _ _ Hp) Ea); discriminate). subst r. destruct (prun w' false a t'); try contradiction. exact I.
    + assert (G : goes a t t' (PMatch t1 n1) (prun w' false a t')) by (apply (IH w w' a t t' _ Ha Fa (fresh_pre _ _ _ Hp) Ea); discriminate).
      destruct (prun w' false a t') as [| |t1' n1']; try contradiction. cbn [pbind].
      pose proof (goes_after _ _ _ _ _ _ _ G) as Haf. pose proof (skip_fresh _ _ Haf) as Hfr.
      destruct (peg f w true skip_exp t1) as [| |t2 n2] eqn:Es; cbn [pbind] in E;
        [pose proof (peg_skip f w t1 _ Es ltac:(discriminate)) as X; discriminate X|congruence|].
      pose proof (peg_skip f w t1 _ Es ltac:(discriminate)) as X. injection X as -> ->. cbn [skipped].
      assert (Gb : peg f w false b (skip_text t1) <> PFuel) by (intros X; rewrite X in E; cbn [pbind] in E; congruence).
      pose proof (IH w w' b _ _ _ Hb Fb (fresh_pre _ _ _ Hfr) eq_refl Gb) as G2.
      destruct (goes_same _ _ _ _ _ _ _ G) as [S|(-> & -> & L)].
      * destruct (peg f w false b (skip_text t1)) as [| |t3 n3] eqn:Eb; cbn [pbind] in E; [|congruence|].
        -- subst r. destruct (prun w' false b (skip_text t1')); try contradiction. exact I.
        -- subst r. destruct (prun w' false b (skip_text t1')) as [| |t3' n3']; try contradiction. cbn [pbind]. apply goes_make; [exact (goes_after _ _ _ _ _ _ _ G2)| |].
           ++ destruct (goes_same _ _ _ _ _ _ _ G2) as [S2|(-> & -> & L)]; [left; apply same_app; assumption|right; auto].
           ++ cbn [tight]. intros Ht E'. apply andb_true_iff in Ht. destruct Ht as [Ht Hn]. apply andb_true_iff in Ht. destruct Ht as [Ta Tb]. apply negb_true_iff in Hn.
              destruct G2 as (_ & _ & G2). apply (G2 Tb). destruct (fresh_cases _ _ Hfr) as [?|[X1 X2]]; [assumption|]. rewrite X1 in Eb. destruct (not_empty_match _ _ _ _ _ _ Hn Eb).
      * rewrite L in Hl. cbn [andb] in Hl. change (skip_text []) with (@nil N) in *. rewrite (peg_stuck f w false b Hl Gb) in *. cbn [pbind] in E. subst r.
        destruct (prun w' false b []); try contradiction. exact I.
  - (* PAlt *) cbn [blind] in Hb. apply andb_true_iff in Hb. destruct Hb as [Ha Hb]. pose proof Hf as Hf'. cbn [fine] in Hf'. apply andb_true_iff in Hf'. destruct Hf' as [Fa Fb].
    rewrite run_alt by exact Hf. assert (Gf : peg f w false a t <> PFuel) by (intros X; rewrite X in E; congruence).
    pose proof (IH w w' a t t' _ Ha Fa (fresh_pre _ _ _ Hp) eq_refl Gf) as G.
    destruct (peg f w false a t) as [| |t1 n1] eqn:Ea; [|congruence|].
    + destruct (prun w' false a t') as [| |? ?] eqn:Ea'; try contradiction. apply (goes_weaken b); [cbn [loose]; intros ->; apply orb_true_r|cbn [tight]; intros X; apply andb_true_iff in X; apply X|].
      apply (IH w w' b t t' r Hb Fb (fresh_pre _ _ _ Hp) E Hr).
    + subst r. destruct (prun w' false a t') as [| |? ?] eqn:Ea'; try contradiction. apply (goes_weaken a); [cbn [loose]; intros ->; reflexivity|cbn [tight]; intros X; apply andb_true_iff in X; apply X|exact G].
  - (* POpt *) cbn [blind] in Hb. apply andb_true_iff in Hb. destruct Hb as [Ha Hl]. assert (Fa : fine a = true) by exact Hf.
    rewrite run_opt by exact Fa. assert (Gf : peg f w false a t <> PFuel) by (intros X; rewrite X in E; congruence).
    pose proof (IH w w' a t t' _ Ha Fa (fresh_pre _ _ _ Hp) eq_refl Gf) as G.
    destruct (peg f w false a t) as [| |t1 n1] eqn:Ea; [|congruence|]; subst r; destruct (prun w' false a t') as [| |? ?] eqn:Ea'; try contradiction.
    + apply goes_make; [apply fresh_after; exact Hp|left; constructor|auto].
    + exact G.
  - (* PRep *) cbn [blind] in Hb. apply andb_true_iff in Hb. destruct Hb as [Hb Hn]. apply andb_true_iff in Hb. destruct Hb as [Ha Hl]. apply negb_true_iff in Hl, Hn. pose proof (fine_rep _ Hf) as Fa.
    rewrite run_rep by exact Hf. assert (Gf : peg f w false a t <> PFuel) by (intros X; rewrite X in E; congruence).
    pose proof (IH w w' a t t' _ Ha Fa (fresh_pre _ _ _ Hp) eq_refl Gf) as G.
    destruct (peg f w false a t) as [| |t1 n1] eqn:Ea; [|congruence|]; destruct (prun w' false a t') as [| |t1' n1'] eqn:Ea'; try contradiction.
    + subst r. apply goes_make; [apply fresh_after; exact Hp|left; constructor|auto].
    + assert (Gm : peg f w false (PMore a) t1 <> PFuel) by (intros X; rewrite X in E; cbn [pbind] in E; congruence).
      assert (Hbm : blind (PMore a) = true) by (cbn [blind]; rewrite Ha, Hl, Hn; reflexivity).
      assert (Hpm : pre (PMore a) t1 t1') by exact (goes_after _ _ _ _ _ _ _ G).
      pose proof (IH w w' (PMore a) t1 t1' _ Hbm Hf Hpm eq_refl Gm) as G2.
      destruct (goes_same _ _ _ _ _ _ _ G) as [S|(_ & _ & L)]; [|congruence].
      destruct (peg f w false (PMore a) t1) as [| |t3 n3] eqn:Eb; cbn [pbind] in E; [subst r; destruct (prun w' false (PMore a) t1'); try contradiction; exact I|congruence|].
      subst r. destruct (prun w' false (PMore a) t1') as [| |t3' n3']; try contradiction. cbn [pbind]. apply goes_make; [exact (goes_after _ _ _ _ _ _ _ G2)| |].
      * destruct (goes_same _ _ _ _ _ _ _ G2) as [S2|(-> & -> & L)]; [left; apply same_app; assumption|right; auto].
      * cbn [tight]. intros Ht E'. destruct G as (_ & _ & G), G2 as (_ & _ & G2). apply G2; [exact Ht|]. apply G; assumption.
  - (* PMore *) pose proof Hb as Hbm. cbn [blind] in Hb. apply andb_true_iff in Hb. destruct Hb as [Hb Hn]. apply andb_true_iff in Hb. destruct Hb as [Ha Hl]. apply negb_true_iff in Hl, Hn. pose proof (fine_rep _ Hf) as Fa.
    rewrite more_eq by exact Hf. cbn [skipped]. pose proof (skip_fresh _ _ Hp) as Hfr.
    destruct (peg f w true skip_exp t) as [| |t2 n2] eqn:Es; cbn [pbind] in E;
      [pose proof (peg_skip f w t _ Es ltac:(discriminate)) as X; discriminate X|congruence|].
    pose proof (peg_skip f w t _ Es ltac:(discriminate)) as X. injection X as -> ->.
    assert (Gf : peg f w false a (skip_text t) <> PFuel) by (intros X; rewrite X in E; congruence).
    pose proof (IH w w' a _ _ _ Ha Fa (fresh_pre _ _ _ Hfr) eq_refl Gf) as G.
    destruct (peg f w false a (skip_text t)) as [| |t1 n1] eqn:Ea; [|congruence|]; destruct (prun w' false a (skip_text t')) as [| |t1' n1'] eqn:Ea'; try contradiction.
    + subst r. apply goes_make; [exact Hp|left; constructor|auto].
    + assert (Gm : peg f w false (PMore a) t1 <> PFuel) by (intros X; rewrite X in E; cbn [pbind] in E; congruence).
      assert (Hpm : pre (PMore a) t1 t1') by exact (goes_after _ _ _ _ _ _ _ G).
      pose proof (IH w w' (PMore a) t1 t1' _ Hbm Hf Hpm eq_refl Gm) as G2.
      destruct (goes_same _ _ _ _ _ _ _ G) as [S|(_ & _ & L)]; [|congruence].
      destruct (peg f w false (PMore a) t1) as [| |t3 n3] eqn:Eb; cbn [pbind] in E; [subst r; destruct (prun w' false (PMore a) t1'); try contradiction; exact I|congruence|].
      subst r. destruct (prun w' false (PMore a) t1') as [| |t3' n3']; try contradiction. cbn [pbind]. apply goes_make; [exact (goes_after _ _ _ _ _ _ _ G2)| |].
      * destruct (goes_same _ _ _ _ _ _ _ G2) as [S2|(-> & -> & L)]; [left; apply same_app; assumption|right; auto].
      * cbn [tight]. intros Ht E'. destruct G as (_ & _ & G), G2 as (_ & _ & G2). apply G2; [exact Ht|]. apply G; [exact Ht|].
        destruct (fresh_cases _ _ Hfr) as [?|[X1 X2]]; [assumption|]. rewrite X1 in Ea. destruct (not_empty_match _ _ _ _ _ _ Hn Ea).
  - (* PRule *) cbn [blind] in Hb. destruct (rule_eq_dec r0 number) as [->|Hn].
    + assert (Er : r = prun w false (PRule number) t) by (rewrite <- (peg_prun (S f) w false (PRule number) t eq_refl); [symmetry; exact E|cbn [peg]; congruence]).
      rewrite Er. rewrite !run_number. destruct Hp as [He [[Ht ->]|[-> ->]]]; [|exact I]. rewrite digits_cm. pose proof (take_digits_app t) as Hd. destruct (take_digits t) as [d q]. cbn [fst snd] in *. destruct d as [|d0 d]; [exact I|].
      apply goes_make; [|left; repeat constructor|reflexivity]. split; [|left; reflexivity]. rewrite <- Hd in He. apply end_suffix in He. exact He.
    + destruct (body_blind r0 Hb Hn) as (Bb & Bl & Bt & Bm & Ba). rewrite Ba in E. cbn [orb] in E. rewrite run_rule, Ba. cbn [orb]. destruct (body_fine r0) as [Fb _].
      assert (Gf : peg f w false (body r0) t <> PFuel) by (intros X; rewrite X in E; cbn [pbind] in E; congruence).
      pose proof (IH w w' (body r0) t t' _ Bb Fb (fresh_pre _ _ _ Hp) eq_refl Gf) as G.
      destruct (peg f w false (body r0) t) as [| |t1 n1] eqn:Ea; [|congruence|]; subst r; destruct (prun w' false (body r0) t') as [| |t1' n1'] eqn:Ea'; try contradiction; [exact I|]. cbn [pbind].
      assert (Hlen : length t1 <= length t) by (apply peg_eats in Ea; destruct Ea as (p & -> & _); rewrite app_length; lia).
      destruct (goes_same _ _ _ _ _ _ _ G) as [S|(_ & _ & L)]; [|congruence]. pose proof (goes_after _ _ _ _ _ _ _ G) as Haf.
      apply goes_make; [exact Haf| |intros Ht E'; destruct G as (_ & _ & G); apply G; auto].
      destruct (silent r0); [left; exact S|].
      destruct (fresh_cases _ _ Hp) as [E'|[-> ->]].
      * destruct Haf as [_ [E1|[E1 E2]]].
        -- left. constructor; [|constructor]. constructor; [|exact S]. intros _. rewrite E', E1. symmetry. apply consumed_cm. exact Hlen.
        -- destruct (text_matters r0) eqn:Em.
           ++ destruct (Bm eq_refl) as [-> |[-> |T]]; [right; auto|right; auto|]. left. constructor; [|constructor]. constructor; [|exact S]. intros _. destruct G as (_ & _ & G).
              rewrite (G T E') in E2. destruct t1; [|discriminate]. unfold cm in E2. discriminate.
           ++ left. constructor; [|constructor]. constructor; [|exact S]. intros X. congruence.
      * left. constructor; [|constructor]. constructor; [|exact S]. intros _. unfold consumed. rewrite !firstn_nil. reflexivity.
Qed.

(** ** A whole line *)
Definition agree (r r' : presult) : Prop :=
  match r, r' with PFail, PFail => True | PMatch _ ns, PMatch _ ns' => Forall2 same ns ns' | _, _ => False end.
Lemma start_agree l X : end_ok l -> blind X = true -> loose X = false -> fine (PSeq PSoi X) = true ->
  agree (prun (length l) false (PSeq PSoi X) l) (prun (length (l ++ cm)) false (PSeq PSoi X) (l ++ cm)).
Proof.
  intros He Hb Hl Hf. rewrite !seq_eq by exact Hf. rewrite !run_soi, !Nat.eqb_refl. cbn [pbind skipped app].
  assert (Fx : fine X = true) by (cbn [fine] in Hf; apply andb_true_iff in Hf; destruct Hf as [Hf _]; apply andb_true_iff in Hf; apply Hf).
  assert (Hfr : fresh (skip_text l) (skip_text (l ++ cm))) by (apply skip_fresh; split; auto).
  pose proof (simulate _ (length l) (length (l ++ cm)) X _ _ _ Hb Fx (fresh_pre _ _ _ Hfr) eq_refl (prun_fuel (length l) false X (skip_text l) Fx)) as G.
  fold (prun (length l) false X (skip_text l)) in G.
  destruct (prun (length l) false X (skip_text l)) as [| |t1 n1], (prun (length (l ++ cm)) false X (skip_text (l ++ cm))) as [| |t1' n1']; try contradiction; [exact I|]. cbn [pbind agree].
  destruct (goes_same _ _ _ _ _ _ _ G) as [S|(_ & _ & L)]; [exact S|congruence].
Qed.
Lemma rule_agree l r X : end_ok l -> body r = PSeq PSoi X -> blind X = true -> loose X = false -> atomic r = false -> text_matters r = false ->
  agree (prun (length l) false (PRule r) l) (prun (length (l ++ cm)) false (PRule r) (l ++ cm)).
Proof.
  intros He Hbd Hb Hl Ha Ht. destruct (body_fine r) as [F _]. rewrite Hbd in F. rewrite !run_rule, Ha, Hbd. cbn [orb]. pose proof (start_agree l X He Hb Hl F) as G.
  destruct (prun (length l) false (PSeq PSoi X) l) as [| |t1 n1], (prun (length (l ++ cm)) false (PSeq PSoi X) (l ++ cm)) as [| |t1' n1']; try contradiction; [exact I|]. cbn [pbind agree] in *.
  destruct (silent r); [exact G|]. constructor; [|constructor]. constructor; [congruence|exact G].
Qed.
Lemma alt_agree w w' a b t t' : fine (PAlt a b) = true -> agree (prun w false a t) (prun w' false a t') -> agree (prun w false b t) (prun w' false b t') ->
  agree (prun w false (PAlt a b) t) (prun w' false (PAlt a b) t').
Proof. intros F Ha Hb. rewrite !run_alt by exact F. destruct (prun w false a t), (prun w' false a t'); try contradiction; assumption. Qed.
Lemma query_agree l : end_ok l -> agree (parse_rule query l) (parse_rule query (l ++ cm)).
Proof.
  intros He. rewrite !parse_rule_run. rewrite !run_rule. cbn [atomic orb]. 
  assert (G : agree (prun (length l) false (body query) l) (prun (length (l ++ cm)) false (body query) (l ++ cm))).
  { cbn [body choice]. repeat (apply alt_agree; [reflexivity| |]); (eapply rule_agree; [exact He|reflexivity|reflexivity|reflexivity|reflexivity|reflexivity]). }
  destruct (prun (length l) false (body query) l) as [| |t1 n1], (prun (length (l ++ cm)) false (body query) (l ++ cm)) as [| |t1' n1']; try contradiction; [exact I|]. cbn [pbind agree silent] in *.
  constructor; [|constructor]. constructor; [discriminate|exact G].
Qed.
End comment.

(** ** Equal meaning *)
Lemma same_rule n n' : same n n' -> node_rule n = node_rule n'.
Proof. intros []. reflexivity. Qed.
Lemma same_text n n' : same n n' -> text_matters (node_rule n) = true -> node_text n = node_text n'.
Proof. intros [] H1. auto. Qed.
Lemma same_inner n n' : same n n' -> Forall2 same (node_inner n) (node_inner n').
Proof. intros []. assumption. Qed.
Lemma same_is r n n' : same n n' -> is_rule r n = is_rule r n'.
Proof. intros H. unfold is_rule. rewrite (same_rule _ _ H). reflexivity. Qed.
Lemma same_numbers l l' : Forall2 same l l' -> parse_numbers l = parse_numbers l'.
Proof.
  intros H. unfold parse_numbers. induction H as [|x y l l' Hx _ IH]; [reflexivity|]. cbn [flat_map]. rewrite IH. f_equal. rewrite <- (same_is number _ _ Hx). unfold is_rule. destruct (rule_eq_dec (node_rule x) number) as [E|]; [|reflexivity].
  rewrite (same_text _ _ Hx); [reflexivity|]. rewrite E. reflexivity.
Qed.
Lemma same_anagram l l' : Forall2 same l l' -> parse_anagram l = parse_anagram l'.
Proof.
  intros [|x y m m' Hx H]; [reflexivity|]. cbn [parse_anagram]. rewrite (same_numbers _ _ H). rewrite <- (same_is anagram_body _ _ Hx). unfold is_rule. destruct (rule_eq_dec (node_rule x) anagram_body) as [E|]; [|reflexivity].
  rewrite (same_text _ _ Hx); [reflexivity|]. rewrite E. reflexivity.
Qed.
Lemma same_item n n' : same n n' -> class_item_of n = class_item_of n'.
Proof.
  intros H. unfold class_item_of. pose proof (same_text _ _ H) as Ht. rewrite <- (same_rule _ _ H). destruct (node_rule n); try reflexivity; rewrite (Ht eq_refl); reflexivity.
Qed.
Lemma same_items l l' : Forall2 same l l' -> mapM class_item_of l = mapM class_item_of l'.
Proof. induction 1 as [|x y l l' Hx _ IH]; [reflexivity|]. cbn [mapM]. rewrite IH, (same_item _ _ Hx). reflexivity. Qed.
Lemma same_invert l l' : Forall2 same l l' -> existsb (is_rule r_invert) l = existsb (is_rule r_invert) l'.
Proof. induction 1 as [|x y l l' Hx _ IH]; [reflexivity|]. cbn [existsb]. rewrite IH, (same_is _ _ _ Hx). reflexivity. Qed.
Lemma same_term k : forall n n', nsize n <= k -> same n n' -> parse_term n = parse_term n'.
Proof.
  induction k as [|k IH]; intros n n' Hk H; [destruct n; cbn in Hk; lia|]. destruct H as [r t t' l l' Ht Hl].
  assert (Hall : forall m m', (forall n, In n m -> In n l) -> Forall2 same m m' -> parse_terms m = parse_terms m').
  { intros m m' Hm H. induction H as [|x y m m' Hx _ IHm]; [reflexivity|]. cbn [parse_terms]. fold parse_terms. rewrite (IH x y); [|pose proof (nsize_in x l r t (Hm x (or_introl eq_refl))); lia|exact Hx].
    rewrite IHm; [reflexivity|]. intros n Hn. apply Hm. right. exact Hn. }
  specialize (Hall l l' (fun n H => H) Hl) as Hterms. unfold parse_terms in Hterms.
  destruct r; cbn [parse_term]; try reflexivity;
    try (rewrite (Ht eq_refl); reflexivity); try (rewrite Hterms; reflexivity); try (rewrite (same_anagram _ _ Hl); reflexivity).
  all: try (rewrite (same_items _ _ Hl), (same_invert _ _ Hl); reflexivity).
  all: clear Hterms Hall; destruct Hl as [|x y m m' Hx Hm]; [reflexivity|];
    (rewrite (IH x y); [|match type of Hk with nsize (Node ?r _ _) <= _ => pose proof (nsize_in x (x :: m) r t (or_introl eq_refl)) end; lia|exact Hx]); try rewrite (same_numbers _ _ Hm); reflexivity.
Qed.
Lemma same_options l l' : Forall2 same l l' -> forall o, foldM parse_option l o = foldM parse_option l' o.
Proof.
  induction 1 as [|x y l l' Hx _ IH]; intros o; [reflexivity|]. cbn [foldM]. assert (E : parse_option o x = parse_option o y).
  { unfold parse_option. rewrite <- (same_rule _ _ Hx), (same_numbers _ _ (same_inner _ _ Hx)). reflexivity. }
  rewrite E. destruct (parse_option o y); try reflexivity. cbn [bind]. apply IH.
Qed.
Lemma same_expression n n' : same n n' -> parse_expression n = parse_expression n'.
Proof.
  intros H. unfold parse_expression. rewrite <- (same_is _ _ _ H). destruct (is_rule r_expression n); [|reflexivity]. destruct (same_inner _ _ H) as [|x y m m' Hx Hm]; [reflexivity|].
  rewrite <- !(same_is _ _ _ Hx), (same_term (nsize x) x y (le_n _) Hx). unfold parse_options. destruct (is_rule sequence x || is_rule alternatives x); [|reflexivity]. destruct (parse_term y) as [[a|]| | |]; try reflexivity. cbn [bind]. rewrite (same_options _ _ Hm). reflexivity.
Qed.
Definition dict_ok (n : node) : Prop := node_rule n = pragma_dict -> Forall (fun m => node_rule m = character) (node_inner n).
Lemma same_add q n n' : same n n' -> dict_ok n -> add_line q n = add_line q n'.
Proof.
  intros H Hd. unfold add_line. rewrite (same_expression _ _ H), (same_numbers _ _ (same_inner _ _ H)). rewrite <- (same_rule _ _ H). pose proof (same_inner _ _ H) as Hi. destruct (node_rule n) eqn:E; try reflexivity.
  - assert (G : map node_text (filter (fun p => is_rule macro_name p || is_rule macro_value p) (node_inner n)) = map node_text (filter (fun p => is_rule macro_name p || is_rule macro_value p) (node_inner n'))).
    { clear E Hd H. induction Hi as [|x y l l' Hx _ IH]; [reflexivity|]. cbn [filter]. rewrite <- !(same_is _ _ _ Hx). destruct (is_rule macro_name x || is_rule macro_value x) eqn:E; [|exact IH]. cbn [map]. rewrite IH. f_equal. apply same_text; [exact Hx|].
      unfold is_rule in E. destruct (rule_eq_dec (node_rule x) macro_name) as [-> |]; [reflexivity|]. destruct (rule_eq_dec (node_rule x) macro_value) as [-> |]; [reflexivity|discriminate]. }
    rewrite G. reflexivity.
  - specialize (Hd E). assert (G : map node_text (node_inner n) = map node_text (node_inner n')).
    { clear E H. induction Hi as [|x y l l' Hx _ IH]; [reflexivity|]. cbn [map]. inversion Hd; subst. rewrite IH by assumption. f_equal. apply same_text; [exact Hx|]. rewrite H1. reflexivity. }
    rewrite G. reflexivity.
Qed.
Lemma query_dict at_ t ns : yields at_ (PRule query) t ns -> exists p rest, ns = [Node query t (p :: rest)] /\ dict_ok p.
Proof.
  intros H. apply y_rule in H. destruct H as (n1 & H & ->). cbn [silent body choice] in *.
  apply y_alt in H. destruct H as [H|H].
  { apply y_rule in H. destruct H as (n2 & H & ->). cbn [silent body seqs choice] in *. inv_seq H. inversion H0; subst. cbn [app] in *. inv_seq H. apply eoi_node in H. destruct H as [-> ->].
    match goal with G : yields _ (PAlt _ _) _ ?l |- _ => rename G into H2; rename l into nl end.
    assert (G : exists p, nl = [p] /\ dict_ok p).
    { apply y_alt in H2. destruct H2 as [G|G]; [apply y_rule in G; destruct G as (m & G & ->); cbn [silent]; eexists; split; [reflexivity|]; intros X; discriminate X|].
      apply y_alt in G. destruct G as [G|G].
      { apply y_rule in G. destruct G as (m & G & ->). cbn [silent]. eexists. split; [reflexivity|]. intros _. cbn [node_inner]. cbn [body] in G. inv_seq G. match goal with X : yields _ (PAlt (PIns _) _) _ _ |- _ => apply y_alt in X; destruct X as [X|X]; inversion X; subst end; cbn [app];
        (eapply (y_plus _ _ (fun _ m => node_rule m = character)); [auto| |exact G]; intros t' ns' X; apply y_alt in X; destruct X as [X|X]; [apply y_rule in X; destruct X as (? & _ & ->); constructor; [reflexivity|constructor]|apply y_str in X; destruct X as [_ ->]; constructor]). }
      apply y_alt in G. destruct G as [G|G]; [apply y_rule in G; destruct G as (m & G & ->); cbn [silent]; eexists; split; [reflexivity|]; intros X; discriminate X|].
      apply y_alt in G. destruct G as [G|G]; apply y_rule in G; destruct G as (m & G & ->); cbn [silent]; (eexists; split; [reflexivity|]; intros X; discriminate X). }
    destruct G as (p & -> & G). exists p, [Node EOI [] []]. split; [reflexivity|exact G]. }
  apply y_alt in H. destruct H as [H|H].
  { apply y_rule in H. destruct H as (n2 & H & ->). cbn [silent]. eexists _, []. split; [reflexivity|]. intros X. discriminate X. }
  apply y_alt in H. destruct H as [H|H].
  { apply y_rule in H. destruct H as (n2 & H & ->). cbn [silent]. eexists _, []. split; [reflexivity|]. intros X. discriminate X. }
  apply y_rule in H. destruct H as (n2 & H & ->). cbn [silent body] in *. inv_seq H. inversion H0; subst. apply eoi_node in H. destruct H as [-> ->]. cbn [app].
  eexists _, []. split; [reflexivity|]. intros X. discriminate X.
Qed.
(** the line after substitution is extended by a comment *)
Lemma comment_line_end u q i l l' k c : k = 47%N \/ k = 45%N -> c <> [] -> wordlist (q_options q) = None ->
  (forall p a, substitute (macros q) l = p ++ [a] -> a <> k /\ forall p', p = p' ++ [a] -> a <> 47%N /\ a <> 45%N) ->
  substitute (macros q) l' = substitute (macros q) l ++ k :: k :: c ->
  parse_query_line u q i l' = parse_query_line u q i l.
Proof.
  intros Hk Hc Hw He Hl. unfold parse_query_line. rewrite Hw, Hl.
  assert (He' : end_ok k (substitute (macros q) l)).
  { intros p a E. destruct (He p a E) as [H1 H2]. split; [exact H1|]. intros p' E'. specialize (H2 p' E'). unfold bad. apply orb_false_iff. split; apply N.eqb_neq; apply H2. }
  pose proof (query_agree k c Hk Hc _ He') as G. set (t := substitute (macros q) l) in *.
  destruct (parse_rule query t) as [| |r ns] eqn:E, (parse_rule query (t ++ k :: k :: c)) as [| |r' ns'] eqn:E'; try contradiction; [reflexivity|]. cbn [agree] in G.
  apply peg_yields in E. destruct E as (p & _ & Hy). destruct (query_dict _ _ _ Hy) as (n & rest & -> & Hd). inversion G as [|x y m m' Hx Hm]; subst. 
  pose proof (same_inner _ _ Hx) as Hi. cbn [node_inner] in Hi |- *. inversion Hi as [|x' y' m1 m1' Hx' Hm']; subst. rewrite (same_add q _ _ Hx' Hd). reflexivity.
Qed.

Lemma comment_line u q i l l' k c : k = 47%N \/ k = 45%N -> c <> [] -> wordlist (q_options q) = None ->
  (forall p a, substitute (macros q) l = p ++ [a] -> a <> 47%N /\ a <> 45%N) ->
  substitute (macros q) l' = substitute (macros q) l ++ k :: k :: c ->
  parse_query_line u q i l' = parse_query_line u q i l.
Proof.
  intros Hk Hc Hw He Hl. apply (comment_line_end u q i l l' k c Hk Hc Hw); [|exact Hl]. intros p a E. specialize (He p a E). split; [|intros _ _; exact He].
  destruct Hk as [G|G]; rewrite G; apply He.
Qed.
